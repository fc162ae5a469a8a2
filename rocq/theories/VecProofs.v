From Verif Require Import Base IndexModel IndexSpec IndexProofs VecModel VecSpec.
From Coq Require Import NArith ZifyBool ZifyN ZifyNat Sorting.Sorted Permutation.

Lemma check_Ok b x : check b = Ok x <-> b = true.
Proof. unfold check; destruct b; destruct x; split; intros; congruence. Qed.

Lemma obind_Ok A B (e : outcome A) (f : A -> outcome B) y :
  obind e f = Ok y <-> exists x, e = Ok x /\ f x = Ok y.
Proof.
  destruct e; simpl; split; intros H; try discriminate;
  try (destruct H as (x & H1 & H2); congruence); eauto.
Qed.

Lemma oset_Ok A (l : list A) i x l' : oset l i x = Ok l' <-> i < length l /\ l' = upd l i x.
Proof.
  unfold oset. destruct (Nat.ltb_spec i (length l)); split; intros H'.
  - inversion H'; auto.
  - destruct H'; congruence.
  - discriminate.
  - lia.
Qed.

(* ---- wrap-around helpers ---- *)
Lemma nwrap_small n : (N.of_nat n < two64N)%N -> nwrap n = n.
Proof. intros H. unfold nwrap. rewrite N.mod_small by assumption. lia. Qed.

Lemma max_lt_two64 n : (N.of_nat n <= max_elems)%N -> (N.of_nat n < two64N)%N.
Proof. unfold max_elems, two64N; lia. Qed.

Lemma nwrap_le n : nwrap n <= n.
Proof.
  unfold nwrap. assert (N.modulo (N.of_nat n) two64N <= N.of_nat n)%N; [|lia].
  apply N.mod_le. unfold two64N; lia.
Qed.

Section Proofs.
Context {A : Type} (dflt : A).

Lemma data_resize_Ok n l l' :
  data_resize dflt n l = Ok l' ->
  length l' = n /\ (N.of_nat n <= max_elems)%N /\ l' = firstn n l ++ repeat dflt (n - length l).
Proof.
  unfold data_resize. destruct (N.leb_spec (N.of_nat n) max_elems); intros H'; inversion H'; subst.
  rewrite app_length, firstn_length, repeat_length. repeat split; try assumption; lia.
Qed.

Lemma resize_wf v v' : fits (v_dims v) -> vec_resize_ dflt v = Ok v' ->
  wf v' /\ v_dims v' = v_dims v.
Proof.
  unfold vec_resize_, fits. intros Hf H. apply obind_Ok in H. destruct H as (d & H1 & H2).
  inversion H2; subst; clear H2. apply data_resize_Ok in H1. destruct H1 as (H1 & H2 & H3).
  rewrite nwrap_small in H1, H2 by assumption. unfold wf; simpl. rewrite H1. auto.
Qed.

Lemma data_concat_Ok (a b l : list A) :
  data_concat a b = Ok l -> l = a ++ b /\ (N.of_nat (length l) <= max_elems)%N.
Proof.
  unfold data_concat. destruct (N.leb_spec (N.of_nat (length a + length b)) max_elems);
  intros H'; inversion H'; subst. rewrite app_length. auto.
Qed.

Lemma list_eqb_dec_true (a b : list nat) :
  (if list_eq_dec Nat.eq_dec a b then true else false) = true <-> a = b.
Proof. destruct (list_eq_dec Nat.eq_dec a b); split; intros; congruence. Qed.

(* ---- push_back ---- *)
Lemma push_scalar_wf (v v' : vec A) x :
  wf v -> push_back_scalar v x = Ok v' -> wf v' /\ v_data v' = v_data v ++ [x].
Proof.
  unfold wf, push_back_scalar. intros [H1 H2] H.
  destruct (v_dims v) as [|d [|]] eqn:E; try discriminate.
  apply obind_Ok in H. destruct H as (l & H3 & H4). inversion H4; subst; clear H4; simpl.
  apply data_concat_Ok in H3. destruct H3 as [-> H3]. split; [|reflexivity].
  split; [|assumption]. unfold nprod in *; simpl in *. rewrite app_length in *; simpl in *.
  rewrite nwrap_small; [lia|]. unfold max_elems, two64N in *; lia.
Qed.

Lemma push_vec_empty v t d ds :
  v_dims v = d :: ds -> v_data v = [] -> push_back_vec v t = Ok (@mk_vec A (1 :: v_dims t) (v_data t)).
Proof. unfold push_back_vec, v_empty, v_size. intros -> ->. reflexivity. Qed.

Lemma push_vec_nonempty (v t : vec A) d ds :
  v_dims v = d :: ds -> v_data v <> [] ->
  push_back_vec v t =
    (_ <- check (if list_eq_dec Nat.eq_dec ds (v_dims t) then true else false) ;;
     l <- data_concat (v_data v) (v_data t) ;;
     Ok (mk_vec (nwrap (d + 1) :: ds) l)).
Proof.
  unfold push_back_vec, v_empty, v_size. intros -> H.
  destruct (v_data v) as [|x l]; [congruence|]. reflexivity.
Qed.

Lemma wf_dim_bound (v : vec A) d ds :
  wf v -> v_dims v = d :: ds -> v_data v <> [] ->
  d * nprod ds = length (v_data v) /\ 0 < nprod ds /\ 0 < d /\ d <= length (v_data v).
Proof.
  unfold wf. intros [H1 H2] E Hne. rewrite E, nprod_cons in H1.
  destruct (v_data v) as [|x l]; [congruence|]. cbn [length] in *.
  assert (0 < nprod ds) by (destruct (nprod ds); lia).
  assert (0 < d) by (destruct d; lia). repeat split; try lia. nia.
Qed.

Lemma push_vec_wf (v t v' : vec A) :
  wf v -> wf t -> push_back_vec v t = Ok v' -> wf v'.
Proof.
  intros Hv Ht H. destruct (v_dims v) as [|d ds] eqn:E;
    [unfold push_back_vec in H; rewrite E in H; discriminate|].
  destruct (list_eq_dec Nat.eq_dec [] []) as [_|C]; [|congruence].
  destruct (v_data v) as [|x l0] eqn:Ed.
  - rewrite (push_vec_empty _ _ d ds) in H by assumption. inversion H; subst.
    destruct Ht as [H1 H2]. split; simpl; [|assumption]. rewrite nprod_cons. lia.
  - rewrite (push_vec_nonempty _ _ d ds) in H by (congruence || rewrite Ed; discriminate).
    destruct (wf_dim_bound v d ds Hv E) as (B1 & B2 & B3 & B4); [rewrite Ed; discriminate|].
    apply obind_Ok in H. destruct H as (u & H1 & H2). apply check_Ok in H1.
    apply list_eqb_dec_true in H1.
    apply obind_Ok in H2. destruct H2 as (l & H2 & H3). inversion H3; subst; clear H3.
    apply data_concat_Ok in H2. destruct H2 as [-> H2].
    destruct Hv as [V1 V2], Ht as [T1 T2]. split; simpl; [|assumption].
    rewrite app_length, nprod_cons, T1.
    rewrite nwrap_small by (unfold max_elems, two64N in *; rewrite Ed in *; cbn [length] in *; lia).
    lia.
Qed.

(* ---- initializer lists ---- *)
Lemma upd_fill_app (p l : list A) x y : upd (p ++ y :: l) (length p) x = p ++ x :: l.
Proof. rewrite upd_app_r, Nat.sub_diag by lia. reflexivity. Qed.

Lemma homog_flat_length n : forall ds (il : nlist A n), homog n ds il -> length (flat n il) = nprod ds.
Proof.
  induction n as [|n IH]; intros ds il H; simpl in H.
  - subst; reflexivity.
  - destruct ds as [|d ds]; [contradiction|]. destruct H as [H1 H2]. rewrite nprod_cons, <- H1.
    clear H1. simpl. induction H2 as [|x l Hx Hl IHl]; simpl; [reflexivity|].
    rewrite app_length, IHl, (IH ds x Hx). lia.
Qed.

Lemma ilist_fill_ok n : forall ds (il : nlist A n) pre post rest,
  homog n ds il -> length post = nprod ds ->
  ilist_fill n ds il (pre ++ post ++ rest) (length pre) =
    Ok (pre ++ flat n il ++ rest, length pre + nprod ds).
Proof.
  induction n as [|n IH]; intros ds il pre post rest H L.
  - simpl in H; subst ds. unfold nprod in L; simpl in L.
    destruct post as [|y [|]]; try discriminate. simpl.
    unfold oset. rewrite app_length; simpl.
    destruct (Nat.ltb_spec (length pre) (length pre + S (length rest))); [|lia].
    simpl. rewrite upd_fill_app. reflexivity.
  - simpl in H. destruct ds as [|d ds]; [contradiction|]. destruct H as [H1 H2].
    cbn [ilist_fill]. rewrite H1, Nat.eqb_refl. cbn [check obind].
    rewrite nprod_cons in *. rewrite <- H1 in *. clear H1. cbn [flat]. revert pre post L.
    induction H2 as [|x l Hx Hl IHl]; intros pre post L.
    + simpl in *. destruct post; [|discriminate]. f_equal. f_equal. lia.
    + cbn [length] in L. cbn [ofold].
      rewrite <- (firstn_skipn (nprod ds) post). rewrite <- (app_assoc (firstn _ _)).
      rewrite IH by (rewrite ?firstn_length; try assumption; nia).
      cbn [obind]. rewrite app_assoc.
      pose proof (homog_flat_length n ds x Hx) as HL.
      replace (length pre + nprod ds) with (length (pre ++ flat n x)) by (rewrite app_length; lia).
      rewrite (IHl (pre ++ flat n x)) by (rewrite skipn_length; nia).
      cbn [map concat]. rewrite !app_assoc. f_equal. f_equal.
      rewrite app_length. cbn [length]. nia.
Qed.

Lemma ilist_dims_homog n : forall ds (il : nlist A n),
  homog n ds il -> Forall (fun d => 0 < d) ds -> ilist_dims n il = Some ds.
Proof.
  induction n as [|n IH]; intros ds il H Hp; simpl in *.
  - subst; reflexivity.
  - destruct ds as [|d ds]; [contradiction|]. destruct H as [H1 H2].
    inversion Hp as [|? ? P1 P2]; subst. destruct il as [|x il]; [simpl in P1; lia|].
    inversion H2; subst. rewrite (IH ds) by assumption. reflexivity.
Qed.

Lemma ilist_dims_length n : forall (il : nlist A n) ds,
  ilist_dims n il = Some ds -> length ds = n /\ Forall (fun d => 0 < d) ds.
Proof.
  induction n as [|n IH]; intros il ds H; simpl in *.
  - inversion H; auto.
  - destruct il as [|x il]; [discriminate|]. destruct (ilist_dims n x) as [d|] eqn:E; [|discriminate].
    inversion H; subst; clear H. destruct (IH _ _ E). simpl. split; [lia|]. constructor; [lia|assumption].
Qed.

Lemma ilist_ok n ds (il : nlist A n) old :
  homog n ds il -> Forall (fun d => 0 < d) ds -> (N.of_nat (nprod ds) <= max_elems)%N ->
  vec_ilist dflt n il old = Ok (mk_vec ds (flat n il)).
Proof.
  intros H Hp Hm. unfold vec_ilist. rewrite (ilist_dims_homog n ds il) by assumption.
  unfold vec_resize_; cbn [v_dims v_data].
  rewrite nwrap_small by (apply max_lt_two64; assumption).
  unfold data_resize. destruct (N.leb_spec (N.of_nat (nprod ds)) max_elems); [|lia].
  cbn [obind]. set (l := firstn _ _ ++ _).
  assert (Hl : length l = nprod ds).
  { unfold l. rewrite app_length, firstn_length, repeat_length. lia. }
  unfold v_empty, v_size; cbn [v_data]. rewrite Hl.
  assert (0 < nprod ds) by (apply nprod_pos; assumption).
  destruct (Nat.eqb_spec (nprod ds) 0); [lia|].
  pose proof (ilist_fill_ok n ds il [] l [] H Hl) as F. simpl in F. rewrite app_nil_r in F.
  rewrite F. cbn [obind]. rewrite app_nil_r. reflexivity.
Qed.

(* a failed shape check or a complete fill; never UB *)
Lemma ilist_fill_cases n : forall ds (il : nlist A n) pre post rest,
  length ds = n -> length post = nprod ds ->
  ilist_fill n ds il (pre ++ post ++ rest) (length pre) = CheckFail \/ homog n ds il.
Proof.
  induction n as [|n IH]; intros ds il pre post rest Hn L.
  - destruct ds; [|discriminate]. right; reflexivity.
  - destruct ds as [|d ds]; [discriminate|]. cbn [ilist_fill homog].
    destruct (Nat.eqb_spec (length il) d) as [E|E]; [|left; reflexivity].
    cbn [check obind]. rewrite nprod_cons in L. rewrite <- E in *. clear E.
    simpl in Hn. assert (Hn' : length ds = n) by lia. clear Hn.
    assert (G : forall pre post, length post = length il * nprod ds ->
      ofold (fun '(data, idx) t => ilist_fill n ds t data idx) il (pre ++ post ++ rest, length pre) = CheckFail
      \/ Forall (homog n ds) il).
    { clear pre post L. induction il as [|x il IHil]; intros pre post L; [right; constructor|].
      cbn [length] in L. cbn [ofold].
      rewrite <- (firstn_skipn (nprod ds) post). rewrite <- (app_assoc (firstn _ _)).
      assert (Lf : length (firstn (nprod ds) post) = nprod ds) by (rewrite firstn_length; nia).
      destruct (IH ds x pre _ (skipn (nprod ds) post ++ rest) Hn' Lf) as [F|F].
      - left. rewrite F. reflexivity.
      - rewrite ilist_fill_ok by assumption. cbn [obind]. rewrite app_assoc.
        pose proof (homog_flat_length n ds x F) as HL.
        replace (length pre + nprod ds) with (length (pre ++ flat n x)) by (rewrite app_length; lia).
        destruct (IHil (pre ++ flat n x) (skipn (nprod ds) post)) as [G|G];
          [rewrite skipn_length; nia | left; exact G | right; constructor; assumption]. }
    destruct (G pre post L) as [F|F]; [left; exact F|right; auto].
Qed.

Lemma ilist_reject n ds (il : nlist A n) old :
  ilist_dims n il = Some ds -> ~ homog n ds il -> (N.of_nat (nprod ds) <= max_elems)%N ->
  vec_ilist dflt n il old = CheckFail.
Proof.
  intros E Hh Hm. unfold vec_ilist. rewrite E. destruct (ilist_dims_length n il ds E) as [Hn Hp].
  unfold vec_resize_; cbn [v_dims v_data].
  rewrite nwrap_small by (apply max_lt_two64; assumption).
  unfold data_resize. destruct (N.leb_spec (N.of_nat (nprod ds)) max_elems); [|lia].
  cbn [obind]. set (l := firstn _ _ ++ _).
  assert (Hl : length l = nprod ds).
  { unfold l. rewrite app_length, firstn_length, repeat_length. lia. }
  unfold v_empty, v_size; cbn [v_data]. rewrite Hl.
  assert (0 < nprod ds) by (apply nprod_pos; assumption).
  destruct (Nat.eqb_spec (nprod ds) 0); [lia|].
  destruct (ilist_fill_cases n ds il [] l [] Hn Hl) as [F|F]; [|contradiction].
  simpl in F. rewrite app_nil_r in F. rewrite F. reflexivity.
Qed.

Lemma nprod_repeat0 n : 0 < n -> nprod (repeat 0 n) = 0.
Proof. destruct n; [lia|]. reflexivity. Qed.

Lemma ilist_wf n (il : nlist A n) old v :
  0 < n ->
  match ilist_dims n il with Some ds => fits ds | None => True end ->
  vec_ilist dflt n il old = Ok v -> wf v.
Proof.
  intros Hn Hf H. unfold vec_ilist in H.
  set (dims := match ilist_dims n il with Some d => d | None => repeat 0 n end) in *.
  assert (Hfit : fits dims).
  { unfold dims. destruct (ilist_dims n il); [assumption|]. unfold fits.
    rewrite nprod_repeat0 by assumption. unfold two64N; lia. }
  apply obind_Ok in H. destruct H as (w & H1 & H2).
  apply resize_wf in H1; [|assumption]. destruct H1 as [W E]. cbn [v_dims] in E.
  destruct (v_empty w) eqn:Ee; [inversion H2; subst; assumption|].
  apply obind_Ok in H2. destruct H2 as ((d, i) & H2 & H3). inversion H3; subst; clear H3.
  destruct W as [W1 W2]. rewrite E in W1.
  destruct (ilist_dims n il) as [ds|] eqn:Ed.
  - unfold dims in *. destruct (ilist_dims_length n il ds Ed) as [L1 L2].
    destruct (ilist_fill_cases n ds il [] (v_data w) [] L1 W1) as [F|F].
    + simpl in F. rewrite app_nil_r in F. rewrite F in H2. discriminate.
    + pose proof (ilist_fill_ok n ds il [] (v_data w) [] F W1) as G. simpl in G.
      rewrite !app_nil_r in G. rewrite G in H2. injection H2 as <- _.
      split; simpl; [apply homog_flat_length; assumption|].
      rewrite (homog_flat_length n ds il F). rewrite <- W1. assumption.
  - unfold dims in *. rewrite nprod_repeat0 in W1 by assumption.
    unfold v_empty, v_size in Ee. rewrite W1 in Ee. discriminate.
Qed.

(* ---- Cartesian products and positions ---- *)
Lemma positions_cart : forall dims subs ivx, length subs = length dims ->
  positions dims subs ivx = map (fun ids => ivx + row_major dims ids) (cart subs).
Proof.
  induction dims as [|d ds IH]; intros [|s ss] ivx L; try discriminate.
  - cbn. unfold row_major; cbn. f_equal; lia.
  - cbn [positions cart]. rewrite flat_map_concat_map, flat_map_concat_map, concat_map, map_map.
    f_equal. apply map_ext. intros j. rewrite IH by (simpl in L; lia).
    rewrite map_map.
    assert (HF : Forall (fun ids => length ids = length ss) (cart ss)).
    { clear. induction ss as [|s ss IH]; [repeat constructor|]. cbn [cart].
      apply Forall_flat_map. apply Forall_forall. intros j _. apply Forall_map.
      eapply Forall_impl; [|exact IH]. simpl; intros; lia. }
    apply map_ext_Forall. eapply Forall_impl; [|exact HF]. simpl. intros ids Hi.
    rewrite row_major_cons by (simpl in L; lia). lia.
Qed.

Lemma in_cart : forall subs ids, In ids (cart subs) <-> Forall2 (fun s i => In i s) subs ids.
Proof.
  induction subs as [|s ss IH]; intros ids; cbn [cart].
  - split; [intros [<-|[]]; constructor | intros H; inversion H; left; reflexivity].
  - rewrite in_flat_map. split.
    + intros (j & Hj & H). apply in_map_iff in H. destruct H as (is & <- & H).
      constructor; [assumption|]. apply IH; assumption.
    + intros H; inversion H as [|? j ? is Hj His]; subst. exists j. split; [assumption|].
      apply in_map. apply IH; assumption.
Qed.

Lemma NoDup_flat_map_cons s (ll : list (list nat)) :
  NoDup s -> NoDup ll -> NoDup (flat_map (fun j => map (cons j) ll) s).
Proof.
  intros Hs Hl. induction Hs as [|j s Hj Hs IH]; simpl; [constructor|].
  apply NoDup_app_intro.
  - apply FinFun.Injective_map_NoDup; [|assumption]. intros a b E; inversion E; auto.
  - assumption.
  - intros x H1 H2. apply in_map_iff in H1. destruct H1 as (a & <- & _).
    apply in_flat_map in H2. destruct H2 as (k & Hk & H2). apply in_map_iff in H2.
    destruct H2 as (b & E & _). inversion E; subst. contradiction.
Qed.

Lemma NoDup_cart subs : Forall (@NoDup nat) subs -> NoDup (cart subs).
Proof.
  intros H; induction H as [|s ss Hs Hss IH]; cbn [cart].
  - constructor; [intros []|constructor].
  - apply NoDup_flat_map_cons; assumption.
Qed.

Lemma cart_length subs : length (cart subs) = nprod (map (@length nat) subs).
Proof.
  induction subs as [|s ss IH]; [reflexivity|]. cbn [cart map]. rewrite nprod_cons.
  induction s as [|j s IHs]; [reflexivity|]. simpl. rewrite app_length, map_length, IH, IHs. reflexivity.
Qed.

Lemma nth_error_flat_map_blocks (B C : Type) (f : B -> list C) m : forall (s : list B) q r,
  (forall j, In j s -> length (f j) = m) -> r < m ->
  nth_error (flat_map f s) (q * m + r) =
  match nth_error s q with Some j => nth_error (f j) r | None => None end.
Proof.
  induction s as [|j s IH]; intros q r H Hr.
  - simpl. destruct (q * m + r), q; reflexivity.
  - simpl. destruct q as [|q].
    + simpl. rewrite nth_error_app1 by (rewrite H; simpl; auto). reflexivity.
    + rewrite nth_error_app2 by (rewrite H by (simpl; auto); simpl; lia).
      rewrite H by (simpl; auto). replace (S q * m + r - m) with (q * m + r) by (simpl; lia).
      rewrite IH; [reflexivity|intros; apply H; simpl; auto|assumption].
Qed.

(* picking one index out of every list *)
Lemma cart_nth : forall subs ks, in_range (map (@length nat) subs) ks ->
  exists ids, nth_error (cart subs) (row_major (map (@length nat) subs) ks) = Some ids /\
    Forall2 (fun '(s, k) i => nth_error s k = Some i) (combine subs ks) ids.
Proof.
  induction subs as [|s ss IH]; intros ks H.
  - inversion H; subst. exists []. split; [reflexivity|constructor].
  - inversion H as [|? k ? ks' Hk Hks]; subst. cbn [map].
    rewrite row_major_cons by (apply in_range_length; assumption).
    destruct (IH ks' Hks) as (ids & H1 & H2).
    pose proof (row_major_bound _ _ Hks) as B.
    cbn [cart]. rewrite nth_error_flat_map_blocks.
    + destruct (nth_error s k) as [i|] eqn:Ei; [|apply nth_error_None in Ei; lia].
      exists (i :: ids). rewrite nth_error_map, H1. split; [reflexivity|].
      cbn [combine]. constructor; assumption.
    + intros j _. rewrite map_length, cart_length. reflexivity.
    + assumption.
Qed.

(* full range in every dimension except one, which is shifted by a *)
Lemma cart_slab : forall pre n post a ia i ib,
  in_range pre ia -> i < n -> in_range post ib ->
  nth_error (cart (map (fun d => seq 0 d) pre ++ seq a n :: map (fun d => seq 0 d) post))
    (row_major (pre ++ n :: post) (ia ++ i :: ib)) = Some (ia ++ (a + i) :: ib).
Proof.
  intros pre n post a ia i ib Ha Hi Hb.
  set (subs := map (fun d => seq 0 d) pre ++ seq a n :: map (fun d => seq 0 d) post).
  assert (EL : map (@length nat) subs = pre ++ n :: post).
  { unfold subs. rewrite map_app, map_map. cbn [map]. rewrite map_map, seq_length.
    f_equal; [|f_equal]; (rewrite <- (map_id pre) at 2 || rewrite <- (map_id post) at 2);
    apply map_ext; intros; apply seq_length. }
  assert (Hr : in_range (map (@length nat) subs) (ia ++ i :: ib)).
  { rewrite EL. apply Forall2_app; [assumption|]. constructor; assumption. }
  destruct (cart_nth subs _ Hr) as (ids & H1 & H2). rewrite EL in H1. rewrite H1. f_equal.
  unfold subs in H2. clear EL Hr H1 subs.
  revert ids H2. induction Ha as [|d j pre' ia' Hj Ha IH]; intros ids H2.
  - cbn [map app combine] in H2 |- *. inversion H2 as [|? x ? ids' X1 X2]; subst.
    rewrite nth_error_seq in X1. destruct (Nat.ltb_spec i n); [|lia]. inversion X1; subst.
    f_equal. clear -Hb X2. revert ids' X2. induction Hb as [|d j post' ib' Hj Hb IH]; intros ids X2.
    + inversion X2; reflexivity.
    + cbn [map combine] in X2. inversion X2 as [|? x ? ids' X3 X4]; subst.
      rewrite nth_error_seq in X3. destruct (Nat.ltb_spec j d); [|lia]. inversion X3; subst.
      cbn [Nat.add]. f_equal. apply IH; assumption.
  - cbn [map app combine] in H2 |- *. inversion H2 as [|? x ? ids' X1 X2]; subst.
    rewrite nth_error_seq in X1. destruct (Nat.ltb_spec j d); [|lia]. inversion X1; subst.
    cbn [Nat.add]. f_equal. apply IH; assumption.
Qed.

(* ---- element-wise assignment through positions ---- *)
Lemma assign_fold : forall (pos : list nat) (src : list A) data,
  length pos = length src -> NoDup pos -> Forall (fun p => p < length data) pos ->
  exists d', ofold (fun d '(p, x) => oset d p x) (combine pos src) data = Ok d' /\
    length d' = length data /\
    (forall k p, nth_error pos k = Some p -> nth_error d' p = nth_error src k) /\
    (forall p, ~ In p pos -> nth_error d' p = nth_error data p).
Proof.
  induction pos as [|p pos IH]; intros [|x src] data L Hn Hb; try discriminate.
  - exists data. repeat split; auto. intros [|k] q; discriminate.
  - cbn [combine ofold]. inversion Hn as [|? ? N1 N2]; subst.
    inversion Hb as [|? ? B1 B2]; subst.
    unfold oset. destruct (Nat.ltb_spec p (length data)); [|lia]. cbn [obind].
    destruct (IH src (upd data p x)) as (d' & H1 & H2 & H3 & H4); auto.
    { rewrite upd_length; assumption. }
    exists d'. split; [exact H1|]. rewrite upd_length in H2. split; [assumption|]. split.
    + intros [|k] q E; simpl in E.
      * inversion E; subst. rewrite H4 by assumption. rewrite nth_error_upd_same by assumption. reflexivity.
      * rewrite (H3 k q E). reflexivity.
    + intros q Hq. simpl in Hq. rewrite H4 by tauto. apply nth_error_upd_other. intros ->; tauto.
Qed.

Lemma assign_fold_length : forall (pos : list nat) (src : list A) data d',
  ofold (fun d '(p, x) => oset d p x) (combine pos src) data = Ok d' -> length d' = length data.
Proof.
  intros pos src data d'. revert data. generalize (combine pos src). intros l.
  induction l as [|(p, x) l IH]; intros data H; cbn [ofold] in H.
  - inversion H; reflexivity.
  - apply obind_Ok in H. destruct H as (d1 & H1 & H2). apply oset_Ok in H1. destruct H1 as [_ ->].
    rewrite (IH _ H2). apply upd_length.
Qed.

(* ---- append along a dimension ---- *)
Lemma nprod_upd : forall l N n, nth_error l N = Some n ->
  exists q, nprod l = n * q /\ forall x, nprod (upd l N x) = x * q.
Proof.
  induction l as [|d l IH]; intros [|N] n H; try discriminate; simpl in H.
  - inversion H; subst. exists (nprod l). split; [apply nprod_cons|]. intros x; simpl; apply nprod_cons.
  - destruct (IH N n H) as (q & H1 & H2). exists (d * q). split.
    + rewrite nprod_cons, H1. lia.
    + intros x. simpl. rewrite nprod_cons, H2. lia.
Qed.

Lemma two_max n1 n2 : (N.of_nat n1 <= max_elems)%N -> (N.of_nat n2 <= max_elems)%N ->
  (N.of_nat (n1 + n2) < two64N)%N.
Proof. unfold max_elems, two64N; lia. Qed.

(* what the checks of append/prepend establish *)
Lemma append_shape N (t1 t2 : vec A) n1 n2 :
  wf t1 -> wf t2 -> nth_error (v_dims t1) N = Some n1 -> nth_error (v_dims t2) N = Some n2 ->
  n1 <> 0 -> n2 <> 0 -> v_size t1 <> 0 -> v_size t1 / n1 = v_size t2 / n2 ->
  nwrap (n1 + n2) = n1 + n2 /\
  nprod (upd (v_dims t1) N (n1 + n2)) = v_size t1 + v_size t2 /\
  fits (upd (v_dims t1) N (n1 + n2)).
Proof.
  intros [W1 M1] [W2 M2] E1 E2 Z1 Z2 Hne Hq. unfold v_size in *.
  destruct (nprod_upd _ _ _ E1) as (q1 & P1 & U1).
  destruct (nprod_upd _ _ _ E2) as (q2 & P2 & U2).
  rewrite W1, W2, P1, P2 in Hq. rewrite !(Nat.mul_comm _ q1), !(Nat.mul_comm _ q2) in Hq.
  rewrite !Nat.div_mul in Hq by assumption. subst q2.
  assert (Hs : nprod (upd (v_dims t1) N (n1 + n2)) = length (v_data t1) + length (v_data t2)).
  { rewrite U1, W1, W2, P1, P2. lia. }
  pose proof (two_max _ _ M1 M2) as T. rewrite <- Hs in T.
  split; [|split; [exact Hs|exact T]].
  apply nwrap_small. assert (0 < q1) by (destruct q1; lia).
  assert (n1 + n2 <= nprod (upd (v_dims t1) N (n1 + n2))) by (rewrite U1; nia). lia.
Qed.

Lemma append_wf N (t1 t2 v' : vec A) :
  wf t1 -> wf t2 -> append_dim dflt N t1 t2 = Ok v' -> wf v'.
Proof.
  intros W1 W2 H. unfold append_dim in H.
  destruct (v_empty t1) eqn:Ee; [inversion H; subst; assumption|].
  destruct (v_empty t2); [inversion H; subst; assumption|].
  apply obind_Ok in H. destruct H as (n1 & E1 & H). apply obind_Ok in H. destruct H as (n2 & E2 & H).
  apply oget_Ok in E1, E2.
  destruct ((n1 =? 0) || (n2 =? 0)) eqn:Ez; [discriminate|].
  apply obind_Ok in H. destruct H as (u & Hc & H). apply obind_Ok in H. destruct H as (r & Hr & H).
  apply check_Ok in Hc. unfold v_empty in Ee.
  destruct (append_shape N t1 t2 n1 n2) as (S1 & S2 & S3); try assumption; try lia.
  apply resize_wf in Hr; [|rewrite S1; exact S3]. destruct Hr as [Wr Er].
  apply obind_Ok in H. destruct H as (d1 & H1 & H). apply obind_Ok in H. destruct H as (d2 & H2 & H).
  inversion H; subst; clear H.
  unfold assign_positions in H1, H2.
  apply obind_Ok in H1. destruct H1 as (u1 & _ & H1). apply assign_fold_length in H1.
  apply obind_Ok in H2. destruct H2 as (u2 & _ & H2). apply assign_fold_length in H2.
  destruct Wr as [R1 R2]. split; simpl; congruence.
Qed.

Lemma prepend_wf N (t1 t2 v' : vec A) :
  wf t1 -> wf t2 -> prepend_dim dflt N t1 t2 = Ok v' -> wf v'.
Proof.
  intros W1 W2 H. unfold prepend_dim in H.
  destruct (v_empty t1) eqn:Ee; [inversion H; subst; assumption|].
  destruct (v_empty t2); [inversion H; subst; assumption|].
  apply obind_Ok in H. destruct H as (n1 & E1 & H). apply obind_Ok in H. destruct H as (n2 & E2 & H).
  apply oget_Ok in E1, E2.
  destruct ((n1 =? 0) || (n2 =? 0)) eqn:Ez; [discriminate|].
  apply obind_Ok in H. destruct H as (u & Hc & H). apply obind_Ok in H. destruct H as (r & Hr & H).
  apply check_Ok in Hc. unfold v_empty in Ee.
  destruct (append_shape N t1 t2 n1 n2) as (S1 & S2 & S3); try assumption; try lia.
  apply resize_wf in Hr; [|rewrite S1; exact S3]. destruct Hr as [Wr Er].
  apply obind_Ok in H. destruct H as (d1 & H1 & H). apply obind_Ok in H. destruct H as (d2 & H2 & H).
  inversion H; subst; clear H.
  unfold assign_positions in H1, H2.
  apply obind_Ok in H1. destruct H1 as (u1 & _ & H1). apply assign_fold_length in H1.
  apply obind_Ok in H2. destruct H2 as (u2 & _ & H2). apply assign_fold_length in H2.
  destruct Wr as [R1 R2]. split; simpl; congruence.
Qed.

Lemma app_inj_length (B : Type) : forall (a b c d : list B),
  length a = length c -> a ++ b = c ++ d -> a = c /\ b = d.
Proof.
  induction a as [|x a IH]; intros b [|y c] d L E; simpl in *; try discriminate; [auto|].
  inversion E; subst. destruct (IH b c d) as [-> ->]; auto.
Qed.

(* two slabs of a larger array, [n] planes from [a] on, filled from a source *)
Definition slab_positions (pre : list nat) (m : nat) (post : list nat) (a n : nat) : list nat :=
  positions (pre ++ m :: post) (full_subs (pre ++ m :: post) (length pre) (seq a n)) 0.

Lemma full_subs_split pre m post ids :
  full_subs (pre ++ m :: post) (length pre) ids =
  map (fun d => seq 0 d) pre ++ ids :: map (fun d => seq 0 d) post.
Proof.
  unfold full_subs. rewrite map_app. cbn [map].
  rewrite <- (map_length (fun d => seq 0 d) pre). rewrite upd_app_r, Nat.sub_diag by lia. reflexivity.
Qed.

Lemma map_length_seqs l : map (@length nat) (map (fun d => seq 0 d) l) = l.
Proof. rewrite map_map. rewrite <- (map_id l) at 2. apply map_ext. intros; apply seq_length. Qed.

Lemma slab_in_range pre m post a n ids : a + n <= m ->
  In ids (cart (map (fun d => seq 0 d) pre ++ seq a n :: map (fun d => seq 0 d) post)) ->
  exists ia i ib, ids = ia ++ (a + i) :: ib /\ in_range pre ia /\ i < n /\ in_range post ib.
Proof.
  intros Hm H. apply in_cart in H. apply Forall2_app_inv_l in H.
  destruct H as (ia & r & Ha & Hr & ->). inversion Hr as [|? x ? ib Hx Hb]; subst.
  apply in_seq in Hx. exists ia, (x - a), ib. replace (a + (x - a)) with x by lia.
  assert (G : forall l is, Forall2 (fun (s : list nat) i => In i s) (map (fun d => seq 0 d) l) is -> in_range l is).
  { clear. induction l as [|d l IH]; intros is H; inversion H as [|? j ? js Hj Hjs]; subst; constructor.
    - apply in_seq in Hj. lia.
    - apply IH; assumption. }
  repeat split; auto; lia.
Qed.

Lemma slab_spec pre m post a n (src data : list A) :
  a + n <= m -> length src = nprod (pre ++ n :: post) -> length data = nprod (pre ++ m :: post) ->
  exists d', assign_positions data (slab_positions pre m post a n) src = Ok d' /\
    length d' = length data /\
    (forall ia i ib, in_range pre ia -> i < n -> in_range post ib ->
       nth_error d' (row_major (pre ++ m :: post) (ia ++ (a + i) :: ib)) =
       nth_error src (row_major (pre ++ n :: post) (ia ++ i :: ib))) /\
    (forall ia j ib, in_range pre ia -> j < m -> (j < a \/ a + n <= j) -> in_range post ib ->
       nth_error d' (row_major (pre ++ m :: post) (ia ++ j :: ib)) =
       nth_error data (row_major (pre ++ m :: post) (ia ++ j :: ib))).
Proof.
  intros Hm Hs Hd. unfold slab_positions. rewrite full_subs_split.
  set (subs := map (fun d => seq 0 d) pre ++ seq a n :: map (fun d => seq 0 d) post).
  assert (Lsub : length subs = length (pre ++ m :: post)).
  { unfold subs. rewrite !app_length. cbn [length]. rewrite !map_length. reflexivity. }
  rewrite positions_cart by assumption. cbn [Nat.add].
  set (pos := map (fun ids => row_major (pre ++ m :: post) ids) (cart subs)).
  assert (Hin : forall ids, In ids (cart subs) -> in_range (pre ++ m :: post) ids).
  { intros ids H. destruct (slab_in_range pre m post a n ids Hm H) as (ia & i & ib & -> & H1 & H2 & H3).
    apply Forall2_app; [assumption|]. constructor; [lia|assumption]. }
  assert (Lp : length pos = length src).
  { unfold pos. rewrite map_length, cart_length, Hs. unfold subs. rewrite map_app. cbn [map].
    rewrite !map_length_seqs, seq_length. reflexivity. }
  assert (Np : NoDup pos).
  { unfold pos. assert (Nc : NoDup (cart subs)).
    { apply NoDup_cart. unfold subs. apply Forall_app. split; [|constructor].
      - apply Forall_map. apply Forall_forall. intros; apply seq_NoDup.
      - apply seq_NoDup.
      - apply Forall_map. apply Forall_forall. intros; apply seq_NoDup. }
    revert Nc Hin. generalize (cart subs). intros L Nc Hin.
    induction Nc as [|x L Hx Nc IH]; simpl; constructor.
    - intros C. apply in_map_iff in C. destruct C as (y & E & Hy).
      apply Hx. replace x with y; [assumption|]. eapply row_major_inj; [| |exact E]; apply Hin; simpl; auto.
    - apply IH. intros; apply Hin; simpl; auto. }
  assert (Bp : Forall (fun p => p < length data) pos).
  { unfold pos. apply Forall_map. apply Forall_forall. intros ids H. rewrite Hd.
    apply row_major_bound. apply Hin; assumption. }
  destruct (assign_fold pos src data Lp Np Bp) as (d' & H1 & H2 & H3 & H4).
  exists d'. unfold assign_positions. rewrite Lp, Nat.eqb_refl. cbn [check obind].
  split; [exact H1|]. split; [exact H2|]. split.
  - intros ia i ib Ha Hi Hb. apply H3. unfold pos. rewrite nth_error_map.
    unfold subs. rewrite cart_slab by assumption. reflexivity.
  - intros ia j ib Ha Hj Hout Hb. apply H4. intros C. unfold pos in C. apply in_map_iff in C.
    destruct C as (ids & E & Hids).
    assert (ids = ia ++ j :: ib).
    { eapply row_major_inj; [apply Hin; exact Hids| |exact E].
      apply Forall2_app; [assumption|]. constructor; assumption. }
    subst ids. destruct (slab_in_range pre m post a n _ Hm Hids) as (ia' & i' & ib' & E' & X1 & X2 & X3).
    assert (La : length ia = length ia').
    { rewrite (in_range_length _ _ Ha), (in_range_length _ _ X1). reflexivity. }
    apply app_inj_length in E'; [|exact La]. destruct E' as [_ E']. inversion E'. lia.
Qed.

Lemma nth_error_split_dims (pre : list nat) n post : nth_error (pre ++ n :: post) (length pre) = Some n.
Proof. apply nth_error_mid. Qed.

Lemma append_exact pre n1 n2 post (t1 t2 : vec A) :
  wf t1 -> wf t2 -> v_dims t1 = pre ++ n1 :: post -> v_dims t2 = pre ++ n2 :: post ->
  v_data t1 <> [] -> v_data t2 <> [] ->
  (N.of_nat (v_size t1 + v_size t2) <= max_elems)%N ->
  exists r, append_dim dflt (length pre) t1 t2 = Ok r /\
    v_dims r = pre ++ (n1 + n2) :: post /\ wf r /\
    (forall ia i ib, in_range pre ia -> i < n1 -> in_range post ib ->
       elem r (ia ++ i :: ib) = elem t1 (ia ++ i :: ib)) /\
    (forall ia i ib, in_range pre ia -> i < n2 -> in_range post ib ->
       elem r (ia ++ (n1 + i) :: ib) = elem t2 (ia ++ i :: ib)).
Proof.
  intros W1 W2 D1 D2 Ne1 Ne2 Hmax. unfold append_dim, v_empty.
  assert (S1 : v_size t1 <> 0) by (unfold v_size; destruct (v_data t1); [congruence|discriminate]).
  assert (S2 : v_size t2 <> 0) by (unfold v_size; destruct (v_data t2); [congruence|discriminate]).
  destruct (Nat.eqb_spec (v_size t1) 0); [contradiction|].
  destruct (Nat.eqb_spec (v_size t2) 0); [contradiction|].
  assert (E1 : nth_error (v_dims t1) (length pre) = Some n1) by (rewrite D1; apply nth_error_mid).
  assert (E2 : nth_error (v_dims t2) (length pre) = Some n2) by (rewrite D2; apply nth_error_mid).
  unfold oget. rewrite E1, E2. cbn [obind].
  assert (P1 : v_size t1 = n1 * (nprod pre * nprod post)).
  { destruct W1 as [W1 _]. unfold v_size. rewrite W1, D1, nprod_app, nprod_cons. lia. }
  assert (P2 : v_size t2 = n2 * (nprod pre * nprod post)).
  { destruct W2 as [W2 _]. unfold v_size. rewrite W2, D2, nprod_app, nprod_cons. lia. }
  assert (Z1 : n1 <> 0) by (intros ->; lia). assert (Z2 : n2 <> 0) by (intros ->; lia).
  destruct (Nat.eqb_spec n1 0); [contradiction|]. destruct (Nat.eqb_spec n2 0); [contradiction|].
  cbn [orb].
  assert (Hq : v_size t1 / n1 = v_size t2 / n2).
  { rewrite P1, P2, !(Nat.mul_comm _ (nprod pre * nprod post)), !Nat.div_mul by assumption. reflexivity. }
  rewrite Hq, Nat.eqb_refl. cbn [check obind].
  destruct (append_shape (length pre) t1 t2 n1 n2) as (A1 & A2 & A3); try assumption.
  rewrite A1. rewrite D1, upd_last in A2, A3 |- *.
  unfold vec_resize_; cbn [v_dims v_data]. rewrite nwrap_small by exact A3.
  unfold data_resize. rewrite A2.
  destruct (N.leb_spec (N.of_nat (v_size t1 + v_size t2)) max_elems); [|lia]. cbn [obind v_dims v_data].
  set (l0 := firstn _ _ ++ _).
  assert (L0 : length l0 = nprod (pre ++ (n1 + n2) :: post)).
  { rewrite A2. unfold l0. rewrite app_length, firstn_length, repeat_length. unfold v_size. lia. }
  destruct (slab_spec pre (n1 + n2) post 0 n1 (v_data t1) l0) as (d1 & X1 & X2 & X3 & X4);
    [lia | rewrite <- D1; apply W1 | exact L0 |].
  unfold slab_positions in X1. rewrite X1. cbn [obind].
  destruct (slab_spec pre (n1 + n2) post n1 n2 (v_data t2) d1) as (d2 & Y1 & Y2 & Y3 & Y4);
    [lia | rewrite <- D2; apply W2 | congruence |].
  unfold slab_positions in Y1. rewrite Y1. cbn [obind].
  eexists; split; [reflexivity|]. cbn [v_dims]. split; [reflexivity|]. split; [|split].
  - unfold wf; cbn [v_data v_dims]. rewrite Y2, X2, L0. split; [reflexivity|]. rewrite A2. assumption.
  - intros ia i ib Ha Hi Hb. unfold elem; cbn [v_data v_dims]. rewrite Y4 by (assumption || lia).
    rewrite D1. exact (X3 ia i ib Ha Hi Hb).
  - intros ia i ib Ha Hi Hb. unfold elem; cbn [v_data v_dims]. rewrite Y3 by assumption.
    rewrite D2. reflexivity.
Qed.

Lemma prepend_exact pre n1 n2 post (t1 t2 : vec A) :
  wf t1 -> wf t2 -> v_dims t1 = pre ++ n1 :: post -> v_dims t2 = pre ++ n2 :: post ->
  v_data t1 <> [] -> v_data t2 <> [] ->
  (N.of_nat (v_size t1 + v_size t2) <= max_elems)%N ->
  exists r, prepend_dim dflt (length pre) t1 t2 = Ok r /\
    v_dims r = pre ++ (n1 + n2) :: post /\ wf r /\
    (forall ia i ib, in_range pre ia -> i < n2 -> in_range post ib ->
       elem r (ia ++ i :: ib) = elem t2 (ia ++ i :: ib)) /\
    (forall ia i ib, in_range pre ia -> i < n1 -> in_range post ib ->
       elem r (ia ++ (n2 + i) :: ib) = elem t1 (ia ++ i :: ib)).
Proof.
  intros W1 W2 D1 D2 Ne1 Ne2 Hmax. unfold prepend_dim, v_empty.
  assert (S1 : v_size t1 <> 0) by (unfold v_size; destruct (v_data t1); [congruence|discriminate]).
  assert (S2 : v_size t2 <> 0) by (unfold v_size; destruct (v_data t2); [congruence|discriminate]).
  destruct (Nat.eqb_spec (v_size t1) 0); [contradiction|].
  destruct (Nat.eqb_spec (v_size t2) 0); [contradiction|].
  assert (E1 : nth_error (v_dims t1) (length pre) = Some n1) by (rewrite D1; apply nth_error_mid).
  assert (E2 : nth_error (v_dims t2) (length pre) = Some n2) by (rewrite D2; apply nth_error_mid).
  unfold oget. rewrite E1, E2. cbn [obind].
  assert (P1 : v_size t1 = n1 * (nprod pre * nprod post)).
  { destruct W1 as [W1 _]. unfold v_size. rewrite W1, D1, nprod_app, nprod_cons. lia. }
  assert (P2 : v_size t2 = n2 * (nprod pre * nprod post)).
  { destruct W2 as [W2 _]. unfold v_size. rewrite W2, D2, nprod_app, nprod_cons. lia. }
  assert (Z1 : n1 <> 0) by (intros ->; lia). assert (Z2 : n2 <> 0) by (intros ->; lia).
  destruct (Nat.eqb_spec n1 0); [contradiction|]. destruct (Nat.eqb_spec n2 0); [contradiction|].
  cbn [orb].
  assert (Hq : v_size t1 / n1 = v_size t2 / n2).
  { rewrite P1, P2, !(Nat.mul_comm _ (nprod pre * nprod post)), !Nat.div_mul by assumption. reflexivity. }
  rewrite Hq, Nat.eqb_refl. cbn [check obind].
  destruct (append_shape (length pre) t1 t2 n1 n2) as (A1 & A2 & A3); try assumption.
  rewrite A1. rewrite D1, upd_last in A2, A3 |- *.
  unfold vec_resize_; cbn [v_dims v_data]. rewrite nwrap_small by exact A3.
  unfold data_resize. rewrite A2.
  destruct (N.leb_spec (N.of_nat (v_size t1 + v_size t2)) max_elems); [|lia]. cbn [obind v_dims v_data].
  set (l0 := firstn _ _ ++ _).
  assert (L0 : length l0 = nprod (pre ++ (n1 + n2) :: post)).
  { rewrite A2. unfold l0. rewrite app_length, firstn_length, repeat_length. unfold v_size. lia. }
  destruct (slab_spec pre (n1 + n2) post 0 n2 (v_data t2) l0) as (d1 & X1 & X2 & X3 & X4);
    [lia | rewrite <- D2; apply W2 | exact L0 |].
  unfold slab_positions in X1. rewrite X1. cbn [obind].
  destruct (slab_spec pre (n1 + n2) post n2 n1 (v_data t1) d1) as (d2 & Y1 & Y2 & Y3 & Y4);
    [lia | rewrite <- D1; apply W1 | congruence |].
  unfold slab_positions in Y1. rewrite Y1. cbn [obind].
  eexists; split; [reflexivity|]. cbn [v_dims]. split; [reflexivity|]. split; [|split].
  - unfold wf; cbn [v_data v_dims]. rewrite Y2, X2, L0. split; [reflexivity|]. rewrite A2. assumption.
  - intros ia i ib Ha Hi Hb. unfold elem; cbn [v_data v_dims]. rewrite Y4 by (assumption || lia).
    rewrite D2. exact (X3 ia i ib Ha Hi Hb).
  - intros ia i ib Ha Hi Hb. unfold elem; cbn [v_data v_dims]. rewrite Y3 by assumption.
    rewrite D1. reflexivity.
Qed.

(* ---- removal of rows ---- *)
Lemma firstn_plus (B : Type) a b (l : list B) : firstn (a + b) l = firstn a l ++ firstn b (skipn a l).
Proof. revert l; induction a as [|a IH]; intros [|x l]; simpl; rewrite ?firstn_nil; try reflexivity. f_equal; apply IH. Qed.

Lemma skipn_plus (B : Type) a b (l : list B) : skipn (a + b) l = skipn b (skipn a l).
Proof. revert l; induction a as [|a IH]; intros [|x l]; simpl; rewrite ?skipn_nil; try reflexivity. apply IH. Qed.

Lemma rows_range pitch (P : list A) : forall b a,
  concat (map (row pitch P) (seq a b)) = firstn (b * pitch) (skipn (a * pitch) P).
Proof.
  induction b as [|b IH]; intros a; [reflexivity|]. simpl seq. cbn [map concat].
  rewrite IH. replace (S b * pitch) with (pitch + b * pitch) by lia.
  rewrite firstn_plus, <- skipn_plus. unfold row. f_equal. f_equal. f_equal. lia.
Qed.

Definition kept (ids : list nat) (i : nat) : bool := negb (existsb (Nat.eqb i) ids).

Lemma kept_true ids i : ~ In i ids -> kept ids i = true.
Proof.
  intros H. unfold kept. destruct (existsb (Nat.eqb i) ids) eqn:E; [|reflexivity].
  apply existsb_exists in E. destruct E as (x & H1 & H2). apply Nat.eqb_eq in H2. subst. contradiction.
Qed.
Lemma kept_false ids i : In i ids -> kept ids i = false.
Proof.
  intros H. unfold kept. replace (existsb (Nat.eqb i) ids) with true; [reflexivity|].
  symmetry. apply existsb_exists. exists i. split; [assumption|apply Nat.eqb_refl].
Qed.

Lemma filter_all (B : Type) (f : B -> bool) l : (forall x, In x l -> f x = true) -> filter f l = l.
Proof. induction l as [|x l IH]; intros H; simpl; [reflexivity|]. rewrite H by (simpl; auto). f_equal. apply IH. intros; apply H; simpl; auto. Qed.

Lemma filter_ext_in' (B : Type) (f g : B -> bool) l : (forall x, In x l -> f x = g x) -> filter f l = filter g l.
Proof. induction l as [|x l IH]; intros H; simpl; [reflexivity|]. rewrite H by (simpl; auto). rewrite IH by (intros; apply H; simpl; auto). reflexivity. Qed.

Lemma rows_without_seq pitch n (P : list A) ids :
  rows_without pitch n P ids = concat (map (row pitch P) (filter (kept ids) (seq 0 n))).
Proof. reflexivity. Qed.

Lemma rows_without_step pitch n x (P : list A) ids :
  x < n -> (forall y, In y ids -> y < x) ->
  rows_without pitch n P (x :: ids) =
  rows_without pitch x P ids ++ firstn ((n - (x + 1)) * pitch) (skipn ((x + 1) * pitch) P).
Proof.
  intros Hx Hy. rewrite !rows_without_seq.
  replace n with (x + (1 + (n - (x + 1)))) at 1 by lia.
  rewrite seq_app, filter_app, map_app, concat_app. f_equal.
  - f_equal. f_equal. apply filter_ext_in'. intros i Hi. apply in_seq in Hi. unfold kept. simpl.
    destruct (Nat.eqb_spec i x); [lia|]. reflexivity.
  - cbn [Nat.add seq filter]. rewrite kept_false by (simpl; auto).
    rewrite filter_all.
    + rewrite rows_range. do 2 f_equal. f_equal. lia.
    + intros i Hi. apply in_seq in Hi. apply kept_true. simpl. intros [C|C]; [lia|]. apply Hy in C. lia.
Qed.

Lemma rows_without_prefix pitch x (P : list A) ids :
  rows_without pitch x (firstn ((x + 1) * pitch) P) ids = rows_without pitch x P ids.
Proof.
  unfold rows_without. f_equal. apply map_ext_in. intros i Hi. apply filter_In in Hi.
  destruct Hi as [Hi _]. apply in_seq in Hi. unfold row.
  rewrite skipn_firstn_comm, firstn_firstn. f_equal. nia.
Qed.

Lemma remove_loop_ok osize pitch : forall rest i1 i0 (P tail : list A),
  i0 <= i1 -> StronglySorted gt (i0 :: rest) -> length P = (i1 + 1) * pitch -> i1 < osize ->
  remove_loop osize pitch i1 i0 rest (P ++ tail) = Ok (rows_without pitch i0 P rest ++ tail).
Proof.
  induction rest as [|x rest IH]; intros i1 i0 P tail Hi Hs HL Ho.
  - cbn [remove_loop]. unfold data_erase. rewrite app_length, HL.
    replace (i0 * pitch <=? (i1 + 1) * pitch) with true by (symmetry; apply Nat.leb_le; nia).
    replace ((i1 + 1) * pitch <=? (i1 + 1) * pitch + length tail) with true
      by (symmetry; apply Nat.leb_le; lia). cbn [andb]. f_equal.
    rewrite firstn_app. replace (i0 * pitch - length P) with 0 by (rewrite HL; nia).
    cbn [firstn]. rewrite app_nil_r. rewrite <- HL, skipn_app, skipn_all, Nat.sub_diag. cbn [app skipn].
    f_equal. rewrite rows_without_seq, filter_all by (intros; apply kept_true; intros []).
    rewrite rows_range. reflexivity.
  - cbn [remove_loop]. inversion Hs as [|? ? Hs' Hf]; subst.
    inversion Hf as [|? ? Hx Hf']; subst. inversion Hs' as [|? ? Hs'' Hf'']; subst.
    assert (Hy : forall y, In y rest -> y < x).
    { intros y Iy. rewrite Forall_forall in Hf''. apply Hf''; assumption. }
    rewrite rows_without_step by (assumption || lia).
    destruct (Nat.leb_spec (i0 - x) 1) as [L|L].
    + destruct (Nat.eqb_spec x i1); [lia|]. cbn [negb check obind].
      destruct (Nat.ltb_spec x osize); [|lia]. cbn [check obind].
      rewrite IH by (assumption || lia).
      replace (i0 - (x + 1)) with 0 by lia. cbn [Nat.mul firstn]. rewrite app_nil_r. reflexivity.
    + unfold data_erase. rewrite app_length, HL.
      replace (i0 * pitch <=? (i1 + 1) * pitch) with true by (symmetry; apply Nat.leb_le; nia).
      replace ((i1 + 1) * pitch <=? (i1 + 1) * pitch + length tail) with true
        by (symmetry; apply Nat.leb_le; lia). cbn [andb obind].
      destruct (Nat.ltb_spec x osize); [|lia]. cbn [check obind].
      rewrite firstn_app. replace (i0 * pitch - length P) with 0 by (rewrite HL; nia).
      cbn [firstn]. rewrite app_nil_r. rewrite <- HL, skipn_app, skipn_all, Nat.sub_diag. cbn [app skipn].
      replace (i0 * pitch) with ((x + 1) * pitch + (i0 - (x + 1)) * pitch) by nia.
      rewrite firstn_plus, <- app_assoc.
      rewrite IH; [|lia|assumption|rewrite firstn_length; nia|lia].
      rewrite rows_without_prefix, <- app_assoc. reflexivity.
Qed.

Lemma insert_nat_perm x l : Permutation (insert_nat x l) (x :: l).
Proof.
  induction l as [|y l IH]; simpl; [auto|]. destruct (x <=? y); [auto|].
  rewrite IH. apply perm_swap.
Qed.
Lemma sort_ids_perm l : Permutation (sort_ids l) l.
Proof. induction l as [|x l IH]; simpl; [auto|]. rewrite insert_nat_perm, IH. auto. Qed.

Lemma insert_nat_sorted x l : StronglySorted le l -> StronglySorted le (insert_nat x l).
Proof.
  intros H; induction H as [|y l H IH Hf]; simpl; [repeat constructor|].
  destruct (Nat.leb_spec x y).
  - constructor; [constructor; assumption|]. constructor; [assumption|].
    eapply Forall_impl; [|exact Hf]. simpl; intros; lia.
  - constructor; [assumption|]. rewrite Forall_forall in *. intros z Hz.
    apply (Permutation_in _ (insert_nat_perm x l)) in Hz. destruct Hz as [<-|Hz]; [lia|auto].
Qed.
Lemma sort_ids_sorted l : StronglySorted le (sort_ids l).
Proof. induction l as [|x l IH]; simpl; [constructor|]. apply insert_nat_sorted; assumption. Qed.

Lemma SS_app_last (R : nat -> nat -> Prop) l x :
  StronglySorted R l -> Forall (fun y => R y x) l -> StronglySorted R (l ++ [x]).
Proof.
  intros H Hf; induction H as [|y l H IH Hy]; simpl; [repeat constructor|].
  inversion Hf; subst. constructor; [auto|]. apply Forall_app; split; [assumption|]. repeat constructor; assumption.
Qed.

Lemma rev_sorted l : StronglySorted le l -> NoDup l -> StronglySorted gt (rev l).
Proof.
  intros H; induction H as [|x l H IH Hf]; intros Hn; simpl; [constructor|].
  inversion Hn; subst. apply SS_app_last; [auto|].
  apply Forall_forall. intros y Hy. apply in_rev in Hy. rewrite Forall_forall in Hf.
  specialize (Hf y Hy). assert (x <> y) by (intros ->; contradiction). lia.
Qed.

Lemma rows_without_perm pitch n (P : list A) ids ids' :
  (forall i, In i ids <-> In i ids') -> rows_without pitch n P ids = rows_without pitch n P ids'.
Proof.
  intros H. rewrite !rows_without_seq. do 2 f_equal. apply filter_ext_in'. intros i _.
  destruct (in_dec Nat.eq_dec i ids) as [I|I].
  - rewrite (kept_false ids) by assumption. rewrite (kept_false ids') by (apply H; assumption). reflexivity.
  - rewrite !kept_true; auto. rewrite <- H; assumption.
Qed.

Lemma remove_ok (v : vec A) d ds ids :
  wf v -> v_dims v = d :: ds -> 0 < nprod ds -> NoDup ids -> Forall (fun i => i < d) ids ->
  inplace_remove v ids = Ok (mk_vec (d - length ids :: ds)
                                    (rows_without (nprod ds) d (v_data v) ids)).
Proof.
  intros [W1 W2] E Hp Hn Hb. unfold inplace_remove. rewrite E.
  assert (Hlen : length ids <= d).
  { rewrite <- (seq_length d 0). apply NoDup_incl_length; [assumption|]. intros i Hi.
    rewrite Forall_forall in Hb. apply in_seq. specialize (Hb i Hi). lia. }
  assert (Hsub : nsub64 d (length ids) = d - length ids).
  { unfold nsub64. destruct (Nat.leb_spec (length ids) d); [reflexivity|lia]. }
  rewrite Hsub.
  assert (HL : length (v_data v) = d * nprod ds) by (rewrite W1, E, nprod_cons; reflexivity).
  pose proof (sort_ids_perm ids) as Hperm.
  assert (Hmem : forall i, In i ids <-> In i (rev (sort_ids ids))).
  { intros i. rewrite <- in_rev. split; apply Permutation_in; [apply Permutation_sym|]; assumption. }
  assert (Hdesc : StronglySorted gt (rev (sort_ids ids))).
  { apply rev_sorted; [apply sort_ids_sorted|].
    eapply Permutation_NoDup; [apply Permutation_sym; exact Hperm|assumption]. }
  rewrite (rows_without_perm _ _ _ _ _ Hmem).
  destruct (rev (sort_ids ids)) as [|i1 rest] eqn:Er.
  - cbn [obind]. do 2 f_equal. rewrite rows_without_seq, filter_all by (intros; apply kept_true; intros []).
    rewrite rows_range. cbn [Nat.mul skipn]. rewrite <- HL, firstn_all. reflexivity.
  - assert (Hi1 : i1 < d).
    { rewrite Forall_forall in Hb. apply Hb, Hmem. simpl; auto. }
    unfold v_size. rewrite HL.
    replace (i1 <? d * nprod ds) with true by (symmetry; apply Nat.ltb_lt; nia). cbn [check obind].
    rewrite <- (firstn_skipn ((i1 + 1) * nprod ds) (v_data v)) at 1.
    rewrite remove_loop_ok; [|lia|assumption|rewrite firstn_length, HL; nia|nia].
    cbn [obind]. do 2 f_equal.
    inversion Hdesc as [|? ? Hd1 Hd2]; subst.
    rewrite rows_without_step; [|assumption|intros y Hy; rewrite Forall_forall in Hd2; apply Hd2; assumption].
    rewrite rows_without_prefix. f_equal.
    rewrite <- (firstn_all2 (n := (d - (i1 + 1)) * nprod ds) (skipn ((i1 + 1) * nprod ds) (v_data v))) at 1.
    + reflexivity.
    + rewrite skipn_length, HL. nia.
Qed.

Lemma remove_loop_big osize pitch : forall rest i1 i0 (data : list A),
  i0 <= i1 -> StronglySorted gt (i0 :: rest) -> length data < (i1 + 1) * pitch -> i1 < osize ->
  remove_loop osize pitch i1 i0 rest data = UB.
Proof.
  induction rest as [|x rest IH]; intros i1 i0 data Hi Hs HL Ho; cbn [remove_loop].
  - unfold data_erase. replace ((i1 + 1) * pitch <=? length data) with false
      by (symmetry; apply Nat.leb_gt; lia). rewrite andb_false_r. reflexivity.
  - inversion Hs as [|? ? Hs' Hf]; subst. inversion Hf; subst.
    destruct (Nat.leb_spec (i0 - x) 1) as [L|L].
    + destruct (Nat.eqb_spec x i1); [lia|]. destruct (Nat.ltb_spec x osize); [|lia]. cbn [negb check obind].
      apply IH; try assumption; lia.
    + unfold data_erase. replace ((i1 + 1) * pitch <=? length data) with false
      by (symmetry; apply Nat.leb_gt; lia). rewrite andb_false_r. reflexivity.
Qed.

Lemma SS_gt_head x l : StronglySorted gt (x :: l) -> forall y, In y (x :: l) -> y <= x.
Proof.
  intros H y [<-|Hy]; [lia|]. inversion H as [|? ? _ Hf]; subst. rewrite Forall_forall in Hf.
  specialize (Hf y Hy). lia.
Qed.

Lemma SS_ge_head x l : StronglySorted ge (x :: l) -> forall y, In y (x :: l) -> y <= x.
Proof.
  intros H y [<-|Hy]; [lia|]. inversion H as [|? ? _ Hf]; subst. rewrite Forall_forall in Hf.
  specialize (Hf y Hy). lia.
Qed.

Lemma rev_sorted_ge l : StronglySorted le l -> StronglySorted ge (rev l).
Proof.
  intros H; induction H as [|x l H IH Hf]; simpl; [constructor|].
  apply SS_app_last; [auto|]. apply Forall_forall. intros y Hy. apply in_rev in Hy.
  rewrite Forall_forall in Hf. specialize (Hf y Hy). lia.
Qed.

Lemma in_rev_sort ids i : In i ids <-> In i (rev (sort_ids ids)).
Proof.
  rewrite <- in_rev. split; apply Permutation_in; [apply Permutation_sym|]; apply sort_ids_perm.
Qed.

(* an index past the number of rows but below the number of elements *)
Lemma remove_ub (v : vec A) d ds ids :
  wf v -> v_dims v = d :: ds -> NoDup ids -> Forall (fun i => i < v_size v) ids ->
  Exists (fun i => d <= i) ids -> inplace_remove v ids = UB.
Proof.
  intros [W1 W2] E Hn Hb Hex. unfold inplace_remove. rewrite E.
  pose proof (in_rev_sort ids) as Hmem.
  assert (Hdesc : StronglySorted gt (rev (sort_ids ids))).
  { apply rev_sorted; [apply sort_ids_sorted|].
    eapply Permutation_NoDup; [apply Permutation_sym, sort_ids_perm|assumption]. }
  destruct (rev (sort_ids ids)) as [|i1 rest] eqn:Er.
  - apply Exists_exists in Hex. destruct Hex as (i & Hi & _). apply Hmem in Hi. destruct Hi.
  - apply Exists_exists in Hex. destruct Hex as (i & Hi & Hd). apply Hmem in Hi.
    assert (i <= i1) by (eapply SS_gt_head; eassumption).
    assert (Hi1 : i1 < v_size v).
    { rewrite Forall_forall in Hb. apply Hb, Hmem. simpl; auto. }
    destruct (Nat.ltb_spec i1 (v_size v)); [|lia]. cbn [check obind].
    unfold v_size in *. rewrite W1, E, nprod_cons in Hi1.
    rewrite remove_loop_big; [reflexivity|lia|assumption|rewrite W1, E, nprod_cons; nia|].
    unfold v_size. rewrite W1, E, nprod_cons. assumption.
Qed.

Lemma remove_reject (v : vec A) d ds ids :
  v_dims v = d :: ds -> Exists (fun i => v_size v <= i) ids -> inplace_remove v ids = CheckFail.
Proof.
  intros E Hex. unfold inplace_remove. rewrite E.
  pose proof (in_rev_sort ids) as Hmem.
  pose proof (rev_sorted_ge _ (sort_ids_sorted ids)) as Hdesc.
  apply Exists_exists in Hex. destruct Hex as (i & Hi & Hd). apply Hmem in Hi.
  destruct (rev (sort_ids ids)) as [|i1 rest] eqn:Er; [destruct Hi|].
  assert (i <= i1) by (eapply SS_ge_head; eassumption).
  destruct (Nat.ltb_spec i1 (v_size v)); [lia|]. reflexivity.
Qed.

Lemma filter_length_out ids n : NoDup ids -> Forall (fun i => i < n) ids ->
  length (filter (kept ids) (seq 0 n)) = n - length ids.
Proof.
  intros Hn Hb.
  assert (P : Permutation (filter (kept ids) (seq 0 n) ++ ids) (seq 0 n)).
  { apply NoDup_Permutation.
    - apply NoDup_app_intro; [apply NoDup_filter, seq_NoDup|assumption|].
      intros x H1 H2. apply filter_In in H1. rewrite kept_false in H1 by assumption. destruct H1; discriminate.
    - apply seq_NoDup.
    - intros x. rewrite in_app_iff, filter_In. split.
      + intros [[H _]|H]; [assumption|]. rewrite Forall_forall in Hb. apply in_seq. specialize (Hb x H). lia.
      + intros H. destruct (in_dec Nat.eq_dec x ids); [auto|]. left. split; [assumption|apply kept_true; assumption]. }
  apply Permutation_length in P. rewrite app_length, seq_length in P. lia.
Qed.

Lemma rows_length pitch n (P : list A) l : length P = n * pitch -> Forall (fun i => i < n) l ->
  length (concat (map (row pitch P) l)) = length l * pitch.
Proof.
  intros HL H; induction H as [|i l Hi H IH]; [reflexivity|]. cbn [map concat length].
  rewrite app_length, IH. unfold row. rewrite firstn_length, skipn_length, HL. nia.
Qed.

Lemma remove_wf (v v' : vec A) ids :
  wf v -> NoDup ids -> inplace_remove v ids = Ok v' -> wf v'.
Proof.
  intros W Hn H. destruct (v_dims v) as [|d ds] eqn:E;
    [unfold inplace_remove in H; rewrite E in H; discriminate|].
  destruct ids as [|i0 ids0] eqn:Ei.
  { unfold inplace_remove in H. rewrite E in H. cbn in H. inversion H; subst.
    destruct W as [W1 W2]. split; cbn [v_data v_dims]; [|assumption].
    rewrite W1, E. unfold nsub64. cbn. rewrite Nat.sub_0_r. reflexivity. }
  rewrite <- Ei in *. clear Ei.
  destruct (Exists_dec (fun i => v_size v <= i) ids (fun i => le_dec (v_size v) i)) as [X|X].
  { rewrite (remove_reject v d ds ids E X) in H. discriminate. }
  assert (Hsz : Forall (fun i => i < v_size v) ids).
  { apply Forall_forall. intros i Hi. destruct (lt_dec i (v_size v)); [assumption|].
    exfalso. apply X. apply Exists_exists. exists i; split; [assumption|lia]. }
  destruct (Exists_dec (fun i => d <= i) ids (fun i => le_dec d i)) as [Y|Y].
  { rewrite (remove_ub v d ds ids W E Hn Hsz Y) in H. discriminate. }
  assert (Hd : Forall (fun i => i < d) ids).
  { apply Forall_forall. intros i Hi. destruct (lt_dec i d); [assumption|].
    exfalso. apply Y. apply Exists_exists. exists i; split; [assumption|lia]. }
  destruct (Nat.eq_dec (nprod ds) 0) as [Z|Z].
  { destruct ids as [|i ids1].
    - unfold inplace_remove in H. rewrite E in H. cbn in H. inversion H; subst.
      destruct W as [W1 W2]. split; cbn [v_data v_dims]; [|assumption].
      rewrite W1, E. unfold nsub64. cbn. rewrite Nat.sub_0_r. reflexivity.
    - inversion Hsz as [|? ? C]; subst. destruct W as [W1 _]. unfold v_size in C.
      rewrite W1, E, nprod_cons, Z in C. lia. }
  rewrite (remove_ok v d ds ids W E) in H; try assumption; [|lia]. inversion H; subst; clear H.
  destruct W as [W1 W2]. rewrite E, nprod_cons in W1. unfold wf; cbn [v_data v_dims].
  rewrite rows_without_seq. rewrite (rows_length _ d).
  - rewrite filter_length_out by assumption. rewrite nprod_cons. split; [reflexivity|].
    assert ((d - length ids) * nprod ds <= length (v_data v)) by (rewrite W1; nia). lia.
  - assumption.
  - apply Forall_forall. intros i Hi. apply filter_In in Hi. destruct Hi as [Hi _]. apply in_seq in Hi. lia.
Qed.

(* ---- transpose ---- *)
Lemma omapl_ok (B C : Type) (f : B -> outcome C) (g : B -> option C) : forall l,
  (forall x, In x l -> exists y, f x = Ok y /\ g x = Some y) ->
  exists r, omapl f l = Ok r /\ length r = length l /\
    forall k x, nth_error l k = Some x -> nth_error r k = g x.
Proof.
  induction l as [|x l IH]; intros H.
  - exists []. split; [reflexivity|]. split; [reflexivity|]. intros [|k]; discriminate.
  - destruct (H x (or_introl eq_refl)) as (y & H1 & H2).
    destruct IH as (r & R1 & R2 & R3); [intros; apply H; simpl; auto|].
    exists (y :: r). cbn [omapl]. rewrite H1. cbn [obind]. rewrite R1. cbn [obind].
    split; [reflexivity|]. split; [simpl; lia|].
    intros [|k] z E; simpl in E |- *; [inversion E; subst; symmetry; assumption|]. apply R3; assumption.
Qed.

Lemma transpose_spec (v : vec A) d0 d1 :
  wf v -> v_dims v = [d0; d1] ->
  exists r, transpose v = Ok r /\ v_dims r = [d1; d0] /\ wf r /\
    forall i j, i < d1 -> j < d0 -> elem r [i; j] = elem v [j; i].
Proof.
  intros [W1 W2] E. rewrite E in W1. unfold nprod in W1; cbn [fold_right] in W1. rewrite Nat.mul_1_r in W1.
  unfold transpose. rewrite E. unfold v_size.
  destruct (omapl_ok _ _ (fun i => if d0 =? 0 then UB else oget (v_data v) (i mod d0 * d1 + i / d0))
             (fun i => nth_error (v_data v) (i mod d0 * d1 + i / d0)) (seq 0 (length (v_data v))))
    as (r & R1 & R2 & R3).
  { intros i Hi. apply in_seq in Hi. rewrite W1 in Hi.
    destruct (Nat.eqb_spec d0 0); [subst; lia|].
    assert (i mod d0 < d0) by (apply Nat.mod_upper_bound; assumption).
    assert (i / d0 < d1) by (apply Nat.div_lt_upper_bound; lia).
    assert (B : i mod d0 * d1 + i / d0 < length (v_data v)) by (rewrite W1; nia).
    unfold oget. destruct (nth_error (v_data v) (i mod d0 * d1 + i / d0)) as [y|] eqn:Ey.
    - exists y; auto.
    - apply nth_error_None in Ey. lia. }
  rewrite R1. cbn [obind]. eexists; split; [reflexivity|]. cbn [v_dims]. split; [reflexivity|].
  rewrite seq_length in R2. split.
  - split; cbn [v_data v_dims]; rewrite R2; [|assumption]. rewrite W1. unfold nprod; simpl. lia.
  - intros i j Hi Hj. unfold elem; cbn [v_data v_dims]. rewrite E. unfold row_major; cbn [horner].
    cbn [Nat.mul Nat.add]. rewrite (R3 _ (i * d0 + j)).
    + replace ((i * d0 + j) mod d0) with j.
      * replace ((i * d0 + j) / d0) with i; [reflexivity|].
        rewrite Nat.div_add_l by lia. rewrite Nat.div_small by assumption. lia.
      * rewrite Nat.add_comm, Nat.mod_add by lia. symmetry; apply Nat.mod_small; assumption.
    + rewrite nth_error_seq, W1. destruct (Nat.ltb_spec (i * d0 + j) (d0 * d1)); [reflexivity|nia].
Qed.

Lemma wf_default n : n <> 0 -> wf (@mk_vec A (repeat 0 n) []).
Proof.
  intros H. split; cbn [v_data v_dims length]; [|unfold max_elems; lia].
  rewrite nprod_repeat0 by lia. reflexivity.
Qed.

Lemma Forall_upd (B : Type) (P : B -> Prop) l i x : Forall P l -> P x -> Forall P (upd l i x).
Proof.
  intros H Hx. revert i. induction H as [|y l Hy H IH]; intros [|i]; simpl; constructor; auto.
Qed.

End Proofs.
