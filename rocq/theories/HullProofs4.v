(* Lemmas on convex hulls, part 4: the functions of the library. *)
From Coq Require Import ZifyBool ZifyNat.
From Verif Require Import Base VecProofs VecProofs2 HullModel HullSpec HullProofs HullProofs2 HullProofs3.
Open Scope Z_scope.

Lemma nth_error_prefix {A} (res l : list A) k i : firstn k res = l -> (i < length l)%nat -> nth_error res i = nth_error l i.
Proof.
  intros H Hi. subst l. revert k i Hi. induction res as [|a res IH]; intros k i Hi.
  - destruct k; cbn in Hi; lia.
  - destruct k as [|k]; [cbn in Hi; lia|]. destruct i as [|i]; [reflexivity|]. cbn [firstn nth_error]. apply IH.
    cbn [firstn length] in Hi. lia.
Qed.

Lemma oget_nth (l : list Z) i : (i < length l)%nat -> oget l i = Ok (nth i l 0).
Proof. intros H. unfold oget. rewrite (nth_error_nth' l 0 H). reflexivity. Qed.

Lemma firstn_upd {A} (p : A) : forall res k, (k < length res)%nat -> firstn (S k) (upd res k p) = firstn k res ++ [p].
Proof.
  induction res as [|a res IH]; intros k Hk; [cbn in Hk; lia|].
  destruct k as [|k]; [reflexivity|]. cbn [upd]. rewrite firstn_cons, IH by (cbn in Hk; lia). reflexivity.
Qed.
Section B.
Variables (x y : list Z) (n : nat).
Hypotheses (Hx : length x = n) (Hy : length y = n).
Definition pnt (i : nat) : pt := (nth i x 0, nth i y 0).

Lemma cross3_ok i j k : (i < n)%nat -> (j < n)%nat -> (k < n)%nat ->
  cross3 x y i j k = Ok (area2 (pnt i) (pnt j) (pnt k)).
Proof. intros Hi Hj Hk. unfold cross3. rewrite !oget_nth by lia. reflexivity. Qed.

(* the stack of indices, top first *)
Fixpoint popi (p : nat) (S : list nat) : list nat :=
  match S with
  | b :: ((a :: _) as S') => if area2 (pnt a) (pnt b) (pnt p) <=? 0 then popi p S' else S
  | _ => S
  end.
Definition chaini (S : list nat) (ps : list nat) : list nat := fold_left (fun S p => p :: popi p S) ps S.
Lemma popi_map p S : map pnt (popi p S) = popl (pnt p) (map pnt S).
Proof.
  induction S as [|b S IH]; [reflexivity|]. destruct S as [|a S]; [reflexivity|].
  cbn [popi popl map]. destruct (area2 (pnt a) (pnt b) (pnt p) <=? 0); [exact IH|reflexivity].
Qed.
Lemma chaini_map ps : forall S, map pnt (chaini S ps) = chain (map pnt S) (map pnt ps).
Proof.
  induction ps as [|p ps IH]; intros S; [reflexivity|]. unfold chaini, chain. cbn [map fold_left].
  rewrite <- popi_map. apply (IH (p :: popi p S)).
Qed.
Lemma popi_cons p b a S : popi p (b :: a :: S) =
  if area2 (pnt a) (pnt b) (pnt p) <=? 0 then popi p (a :: S) else b :: a :: S.
Proof. reflexivity. Qed.
Lemma popi_length p S : (length (popi p S) <= length S)%nat.
Proof.
  induction S as [|b S IH]; [cbn; lia|]. destruct S as [|a S]; [cbn; lia|].
  rewrite popi_cons. destruct (_ <=? 0); cbn [length] in *; lia.
Qed.
Lemma popi_incl p S : incl (popi p S) S.
Proof.
  induction S as [|b S IH]; [intros q []|]. destruct S as [|a S]; [intros q; auto|].
  rewrite popi_cons. destruct (_ <=? 0); [intros q Hq; right; apply IH; exact Hq|intros q; auto].
Qed.

Lemma pop_ok res base p : (p < n)%nat -> forall S, Forall (fun i => (i < n)%nat) S ->
  firstn (length base + length S) res = base ++ rev S -> (length base + length S <= length res)%nat ->
  pop x y res (length base + 2) p (length base + length S) = Ok (length base + length (popi p S))%nat /\
  firstn (length base + length (popi p S)) res = base ++ rev (popi p S).
Proof.
  intros Hp. induction S as [|b S IH]; intros HS Hf Hl.
  - cbn [popi length]. split; [|exact Hf].
    destruct (length base + 0)%nat eqn:E; cbn [pop]; [reflexivity|].
    destruct (Nat.ltb_spec (S n0) (length base + 2)); [reflexivity|lia].
  - destruct S as [|a S].
    + cbn [popi length]. split; [|exact Hf].
      destruct (length base + 1)%nat eqn:E; cbn [pop]; [lia|].
      destruct (Nat.ltb_spec (Datatypes.S n0) (length base + 2)); [reflexivity|lia].
    + pose proof (Forall_inv HS) as Hb. pose proof (Forall_inv_tail HS) as HS'. pose proof (Forall_inv HS') as Ha.
      assert (Hrev : base ++ rev (b :: a :: S) = (base ++ rev S) ++ [a; b]).
      { cbn [rev]. rewrite <- !app_assoc. reflexivity. }
      assert (La : nth_error res (length base + length (b :: a :: S) - 2) = Some a).
      { erewrite nth_error_prefix; [|exact Hf|rewrite app_length, rev_length; cbn [length]; lia].
        rewrite Hrev, nth_error_app2 by (rewrite app_length, rev_length; cbn [length]; lia).
        rewrite app_length, rev_length. cbn [length].
        replace (length base + Datatypes.S (Datatypes.S (length S)) - 2 - (length base + length S))%nat with 0%nat by lia.
        reflexivity. }
      assert (Lb : nth_error res (length base + length (b :: a :: S) - 1) = Some b).
      { erewrite nth_error_prefix; [|exact Hf|rewrite app_length, rev_length; cbn [length]; lia].
        rewrite Hrev, nth_error_app2 by (rewrite app_length, rev_length; cbn [length]; lia).
        rewrite app_length, rev_length. cbn [length].
        replace (length base + Datatypes.S (Datatypes.S (length S)) - 1 - (length base + length S))%nat with 1%nat by lia.
        reflexivity. }
      assert (Hf' : firstn (length base + length (a :: S)) res = base ++ rev (a :: S)).
      { apply (f_equal (firstn (length base + length (a :: S)))) in Hf. rewrite firstn_firstn in Hf.
        replace (Nat.min (length base + length (a :: S)) (length base + length (b :: a :: S))) with
          (length base + length (a :: S))%nat in Hf by (cbn [length]; lia).
        rewrite Hf. cbn [rev]. rewrite (app_assoc base), firstn_app.
        rewrite firstn_all2 by (rewrite !app_length, !rev_length; cbn [length]; lia).
        rewrite !app_length, rev_length. cbn [length].
        replace (length base + Datatypes.S (length S) - (length base + (length S + 1)))%nat with 0%nat by lia.
        cbn [firstn]. rewrite app_nil_r. reflexivity. }
      assert (Hl' : (length base + length (a :: S) <= length res)%nat) by (cbn [length] in *; lia).
      destruct (length base + length (b :: a :: S))%nat as [|k'] eqn:E; [cbn [length] in E; lia|].
      cbn [pop]. destruct (Nat.ltb_spec (Datatypes.S k') (length base + 2)); [cbn [length] in E; lia|].
      unfold oget. rewrite La, Lb. cbn [obind]. rewrite cross3_ok by assumption. cbn [obind].
      rewrite popi_cons. destruct (area2 (pnt a) (pnt b) (pnt p) <=? 0).
      * replace k' with (length base + length (a :: S))%nat by (cbn [length] in *; lia).
        apply IH; assumption.
      * split; [f_equal; lia|]. rewrite E. exact Hf.
Qed.

Lemma push_ok res base p S : (p < n)%nat -> Forall (fun i => (i < n)%nat) S ->
  firstn (length base + length S) res = base ++ rev S -> (length base + length S < length res)%nat ->
  exists res', push x y (length base + 2) (res, (length base + length S)%nat) p =
      Ok (res', (length base + length (p :: popi p S))%nat) /\
    firstn (length base + length (p :: popi p S)) res' = base ++ rev (p :: popi p S) /\
    length res' = length res.
Proof.
  intros Hp HS Hf Hl. destruct (pop_ok res base p Hp S HS Hf) as (E & Hf'); [lia|].
  unfold push. rewrite E. cbn [obind]. pose proof (popi_length p S).
  unfold oset. destruct (Nat.ltb_spec (length base + length (popi p S)) (length res)); [|lia]. cbn [obind].
  eexists. split; [f_equal; f_equal; cbn [length]; lia|]. split; [|apply upd_length].
  set (k := (length base + length (popi p S))%nat) in *.
  replace (length base + length (p :: popi p S))%nat with (Datatypes.S k) by (cbn [length]; lia).
  cbn [rev]. rewrite app_assoc, <- Hf'. apply firstn_upd. exact H0.
Qed.

Lemma push_all base ps : forall res S, Forall (fun i => (i < n)%nat) ps -> Forall (fun i => (i < n)%nat) S ->
  firstn (length base + length S) res = base ++ rev S ->
  (length base + length S + length ps <= length res)%nat ->
  exists res', ofold (push x y (length base + 2)) ps (res, (length base + length S)%nat) =
      Ok (res', (length base + length (chaini S ps))%nat) /\
    firstn (length base + length (chaini S ps)) res' = base ++ rev (chaini S ps) /\
    length res' = length res /\ (length (chaini S ps) <= length S + length ps)%nat /\
    Forall (fun i => (i < n)%nat) (chaini S ps).
Proof.
  induction ps as [|p ps IH]; intros res S Hps HS Hf Hl.
  - exists res. cbn [ofold chaini fold_left length]. repeat split; auto; lia.
  - pose proof (Forall_inv Hps) as Hp. pose proof (Forall_inv_tail Hps) as Hps'. cbv beta in Hp. cbn [length] in Hl.
    destruct (push_ok res base p S Hp HS Hf) as (res1 & E & Hf1 & Hl1); [lia|].
    cbn [ofold]. rewrite E. cbn [obind]. pose proof (popi_length p S).
    destruct (IH res1 (p :: popi p S) Hps') as (res2 & E2 & Hf2 & Hl2 & Hlen & HF).
    + constructor; [exact Hp|]. rewrite Forall_forall in *. intros i Hi. apply HS, (popi_incl p S), Hi.
    + exact Hf1.
    + cbn [length]. lia.
    + exists res2. split; [exact E2|]. split; [exact Hf2|]. split; [lia|]. split; [|exact HF].
      change (chaini S (p :: ps)) with (chaini (p :: popi p S) ps). cbn [length] in *. lia.
Qed.
End B.

Lemma ofold_oget {S A} (f : S -> A -> outcome S) (l : list A) : forall is_ ps s,
  map (nth_error l) is_ = map Some ps ->
  ofold (fun s i => p <- oget l i ;; f s p) is_ s = ofold f ps s.
Proof.
  induction is_ as [|i is_ IH]; intros ps s E; destruct ps as [|p ps]; try discriminate; [reflexivity|].
  cbn [map] in E. injection E as E1 E2. cbn [ofold]. unfold oget at 1. rewrite E1. cbn [obind].
  destruct (f s p); cbn [obind]; auto.
Qed.
Lemma map_nth_error_seq {A} (l : list A) : map (nth_error l) (seq 0 (length l)) = map Some l.
Proof.
  induction l as [|a l IH]; [reflexivity|]. cbn [length seq map]. rewrite <- seq_shift, map_map. cbn [nth_error].
  f_equal. exact IH.
Qed.

Lemma le2_less x y i j : less x y j i = false -> le2 (pnt x y i) (pnt x y j).
Proof.
  unfold less, le2, lt2, posv, sub, pnt. cbn [fst snd].
  destruct (Z.ltb_spec (nth j x 0) (nth i x 0)); [discriminate|].
  destruct (Z.ltb_spec (nth i x 0) (nth j x 0)); [intros _; right; lia|].
  destruct (Z.ltb_spec (nth j y 0) (nth i y 0)); [discriminate|]. intros _.
  destruct (Z.eq_dec (nth i y 0) (nth j y 0)); [left; f_equal; lia|right; lia].
Qed.

Lemma points_map x y : length x = length y -> points x y = map (pnt x y) (seq 0 (length x)).
Proof.
  unfold points, pnt. revert y. induction x as [|a x IH]; intros [|b y] E; try discriminate; [reflexivity|].
  cbn [combine length seq map nth]. f_equal. rewrite <- seq_shift, map_map. apply IH. cbn in E. lia.
Qed.

Lemma build_eq s x y : length x = length y -> x <> [] -> sorts (less x y) s ->
  exists h pts, build_convex_hull s x y = Ok h /\ h_validated h = true /\ h_closed h = true /\ h_orient h = 1 /\
    length (h_x h) = length (h_y h) /\
    Permutation (points x y) pts /\ StronglySorted le2 pts /\ vertices h = vhull pts.
Proof.
  intros Hl Hne Hsort. destruct (Hsort (seq 0 (length x))) as (Hp & Hst).
  set (n := length x) in *. set (ids := s (seq 0 n)) in *.
  assert (Hlen : length ids = n) by (rewrite <- (Permutation_length Hp); apply seq_length).
  assert (Hn : (0 < n)%nat) by (unfold n; destruct x; [congruence|cbn; lia]).
  assert (HF : Forall (fun i => (i < n)%nat) ids).
  { rewrite Forall_forall. intros i Hi. apply Permutation_sym in Hp. apply (Permutation_in _ Hp) in Hi.
    apply in_seq in Hi. lia. }
  unfold build_convex_hull. fold n. rewrite <- Hl, Nat.eqb_refl. cbn [check obind]. cbv zeta. fold ids.
  rewrite (ofold_oget (push x y 2) ids (seq 0 n) ids).
  2:{ rewrite <- Hlen. apply map_nth_error_seq. }
  destruct (push_all x y n eq_refl (eq_sym Hl) [] ids (repeat 0%nat (2 * n)) []) as (res1 & E1 & Hf1 & Hl1 & Hc1 & HF1).
  { exact HF. } { constructor. } { reflexivity. } { rewrite repeat_length. cbn [length]. lia. }
  cbn [length Nat.add] in E1, Hf1. rewrite E1. cbn [obind snd fst].
  destruct (Nat.eqb_spec n 0); [lia|].
  (* the last point *)
  destruct (exists_last (l := ids)) as (front & z & Eids). { intros E. rewrite E in Hlen. cbn in Hlen. lia. }
  assert (Hfl : length front = (n - 1)%nat) by (rewrite Eids, app_length in Hlen; cbn in Hlen; lia).
  assert (Echain : exists L, chaini x y [] ids = z :: L).
  { rewrite Eids. unfold chaini. rewrite fold_left_app. cbn [fold_left]. eauto. }
  destruct Echain as (L & EL).
  rewrite (ofold_oget (push x y (length (chaini x y [] ids) + 1)) ids (rev (seq 0 (n - 1))) (rev front)).
  2:{ rewrite <- Hfl, !map_rev. f_equal. rewrite <- map_nth_error_seq. apply map_ext_in. intros i Hi.
      apply in_seq in Hi. rewrite Eids, nth_error_app1 by lia. reflexivity. }
  destruct (push_all x y n eq_refl (eq_sym Hl) (rev L) (rev front) res1 [z]) as (res2 & E2 & Hf2 & Hl2 & Hc2 & HF2).
  { rewrite Forall_forall in *. intros i Hi. apply in_rev in Hi. apply HF. rewrite Eids. apply in_or_app; auto. }
  { rewrite EL in HF1. inversion HF1; auto. }
  { rewrite EL in Hf1. rewrite rev_length. cbn [length rev app] in Hf1 |- *.
    replace (length L + 1)%nat with (S (length L)) by lia. exact Hf1. }
  { rewrite !rev_length, Hl1, repeat_length. cbn [length]. rewrite EL in Hc1. cbn [length] in Hc1. lia. }
  rewrite EL. cbn [length]. rewrite EL in Hf1. cbn [length] in Hf1.
  replace (S (length L) + 1)%nat with (length (rev L) + 2)%nat by (rewrite rev_length; lia).
  replace (res1, S (length L)) with (res1, (length (rev L) + length [z])%nat)
    by (rewrite rev_length; cbn [length]; f_equal; lia).
  rewrite E2. cbn [obind fst snd]. rewrite Hf2.
  set (res := rev L ++ rev (chaini x y [z] (rev front))).
  assert (HFres : forall i, In i res -> (i < n)%nat).
  { intros i Hi. unfold res in Hi. apply in_app_or in Hi as [Hi|Hi]; apply in_rev in Hi.
    - rewrite EL in HF1. inversion HF1 as [|? ? _ H']; subst. rewrite Forall_forall in H'. auto.
    - rewrite Forall_forall in HF2. auto. }
  assert (Hget : forall l : list Z, length l = n -> omapl (oget l) res = Ok (map (fun i => nth i l 0) res)).
  { intros l Hll. apply omapl_map. intros i Hi. apply oget_nth. rewrite Hll. auto. }
  rewrite (Hget x eq_refl), (Hget y (eq_sym Hl)). cbn [obind].
  eexists. exists (map (pnt x y) ids). split; [reflexivity|]. cbn [h_validated h_closed h_orient h_x h_y].
  split; [reflexivity|]. split; [reflexivity|]. split; [reflexivity|]. split; [rewrite !map_length; reflexivity|]. split; [|split].
  - rewrite points_map by exact Hl. apply Permutation_map. exact Hp.
  - clear - Hst. induction Hst as [|a l Hs IH Hall]; cbn [map]; constructor; [exact IH|].
    rewrite Forall_forall in *. intros q Hq. apply in_map_iff in Hq as (j & <- & Hj). apply le2_less. auto.
  - unfold vertices. cbn [h_x h_y].
    assert (Hcomb : combine (map (fun i => nth i x 0) res) (map (fun i => nth i y 0) res) = map (pnt x y) res).
    { clear. induction res as [|a l IH]; [reflexivity|]. cbn [map combine]. f_equal. exact IH. }
    rewrite Hcomb. unfold res, vhull. rewrite map_app, !map_rev. f_equal.
    + f_equal. change (@nil pt) with (map (pnt x y) []). rewrite <- chaini_map, EL. reflexivity.
    + f_equal. rewrite chaini_map. rewrite Eids, map_app, rev_app_distr. cbn [map rev app]. rewrite map_rev. reflexivity.
Qed.

(* ---- in_convex_hull ---- *)
Lemma combine_nth_error {A B} (l : list A) (m : list B) i a b :
  nth_error (combine l m) i = Some (a, b) <-> nth_error l i = Some a /\ nth_error m i = Some b.
Proof.
  revert m i. induction l as [|u l IH]; intros m i.
  - cbn [combine]. destruct i; cbn; split; [discriminate|intros [? ?]; discriminate|discriminate|intros [? ?]; discriminate].
  - destruct m as [|v m]; cbn [combine].
    + split; [destruct i; discriminate|]. intros [_ H]. destruct i; discriminate.
    + destruct i as [|i]; cbn [nth_error]; [|apply IH]. split; [intros [= <- <-]; auto|intros [[= <-] [= <-]]; auto].
Qed.
Lemma edge_nth l a b : edge l a b <-> exists i, nth_error l i = Some a /\ nth_error l (i + 1) = Some b.
Proof.
  split.
  - intros (l1 & l2 & ->). exists (length l1). rewrite !nth_error_app2 by lia.
    rewrite Nat.sub_diag. replace (length l1 + 1 - length l1)%nat with 1%nat by lia. auto.
  - intros (i & H1 & H2). apply nth_error_split in H1 as (l1 & l2 & -> & <-).
    rewrite nth_error_app2 in H2 by lia. replace (length l1 + 1 - length l1)%nat with 1%nat in H2 by lia.
    destruct l2 as [|b' l2]; cbn in H2; [discriminate|]. injection H2 as ->. exists l1, l2. reflexivity.
Qed.

Section Q.
Variables (h : hull) (qx qy : Z).
Hypothesis Hlen : length (h_x h) = length (h_y h).
Definition side (i : nat) : bool :=
  negb (area2 (pnt (h_x h) (h_y h) i) (pnt (h_x h) (h_y h) (i + 1)) (qx, qy) * h_orient h <? 0).
Lemma edge_ok_eq i : (i + 1 < length (h_x h))%nat -> edge_ok h qx qy i = Ok (side i).
Proof. intros Hi. unfold edge_ok. rewrite !oget_nth by lia. reflexivity. Qed.
Lemma edges_ok_eq is_ : (forall i, In i is_ -> i + 1 < length (h_x h))%nat ->
  edges_ok h qx qy is_ = Ok (forallb side is_).
Proof.
  induction is_ as [|i is_ IH]; intros H; [reflexivity|]. cbn [edges_ok forallb].
  rewrite edge_ok_eq by (apply H; left; reflexivity). cbn [obind].
  destruct (side i); [|reflexivity]. apply IH. intros j Hj. apply H. right; exact Hj.
Qed.
Lemma pnt_vertex i : (i < length (h_x h))%nat -> nth_error (vertices h) i = Some (pnt (h_x h) (h_y h) i).
Proof.
  intros Hi. unfold vertices, pnt. apply combine_nth_error. split; apply nth_error_nth'; lia.
Qed.
Lemma sides_edges : h_orient h = 1 ->
  (forallb side (seq 0 (length (h_x h) - 1)) = true <-> forall a b, edge (vertices h) a b -> 0 <= area2 a b (qx, qy)).
Proof.
  intros Ho. rewrite forallb_forall. split.
  - intros H a b He. apply edge_nth in He as (i & H1 & H2).
    assert (Hi : (i + 1 < length (h_x h))%nat).
    { assert (L : (i + 1 < length (vertices h))%nat) by (apply nth_error_Some; congruence).
      unfold vertices, pt in L. rewrite combine_length in L. lia. }
    rewrite pnt_vertex in H1, H2 by lia. injection H1 as <-. injection H2 as <-.
    specialize (H i). rewrite in_seq in H. specialize (H ltac:(lia)). unfold side in H. rewrite Ho in H. lia.
  - intros H i Hi. apply in_seq in Hi. unfold side. rewrite Ho.
    assert (0 <= area2 (pnt (h_x h) (h_y h) i) (pnt (h_x h) (h_y h) (i + 1)) (qx, qy)); [|lia].
    apply H. apply edge_nth. exists i. rewrite !pnt_vertex by lia. auto.
Qed.
Lemma in_hull_eq eps : h_validated h = true -> h_closed h = true -> h_x h <> [] ->
  in_convex_hull eps qx qy h = Ok (forallb side (seq 0 (length (h_x h) - 1))).
Proof.
  intros Hv Hc Hne. unfold in_convex_hull, validate. rewrite Hv. cbn [obind]. rewrite Hc. cbn [check obind].
  assert (E : hull_edges h = Ok (seq 0 (length (h_x h) - 1))).
  { unfold hull_edges. clear Hlen. destruct (h_x h); [congruence|]. cbn [length]. do 2 f_equal. lia. }
  rewrite E. cbn [obind]. apply edges_ok_eq. intros i Hi. apply in_seq in Hi. lia.
Qed.
End Q.

(* ---- the version for vectors of points ---- *)
Section V.
Variables (h : hull) (px py : list Z).
Hypotheses (Hlen : length (h_x h) = length (h_y h)) (Hp : length px = length py).
Let val (p : nat) (es : list nat) : bool := forallb (side h (nth p px 0) (nth p py 0)) es.

Lemma inner_ok es i : (i + 1 < length (h_x h))%nat -> forall k res,
  length res = length px ->
  (forall p, (p < length px)%nat -> nth_error res p = Some (val p es)) ->
  forall m, (m + k = length px)%nat ->
  exists res', ofold (fun res p =>
      r <- oget res p ;;
      if negb r then Ok res
      else
        qx <- oget px p ;; qy <- oget py p ;;
        b <- edge_ok h qx qy i ;;
        if b then Ok res else oset res p false) (seq m k) res = Ok res' /\ (length res' = length px)%nat /\
    forall p, (p < length px)%nat -> nth_error res' p = Some (if (m <=? p)%nat then val p (es ++ [i]) else val p es).
Proof.
  intros Hi. intros k res Hr Hv m Hm.
  assert (G : forall k m res, length res = length px -> (m + k = length px)%nat ->
    (forall p, (p < length px)%nat -> (m <= p)%nat -> nth_error res p = Some (val p es)) ->
    exists res', ofold (fun res p =>
      r <- oget res p ;;
      if negb r then Ok res
      else
        qx <- oget px p ;; qy <- oget py p ;;
        b <- edge_ok h qx qy i ;;
        if b then Ok res else oset res p false) (seq m k) res = Ok res' /\ (length res' = length px)%nat /\
    forall p, (p < length px)%nat -> nth_error res' p = if (m <=? p)%nat then Some (val p (es ++ [i])) else nth_error res p).
  { clear k res Hr Hv m Hm. induction k as [|k IH]; intros m res Hr Hm Hv.
    - exists res. cbn [seq ofold]. split; [reflexivity|]. split; [exact Hr|]. intros p Hp'.
      destruct (Nat.leb_spec m p); [lia|reflexivity].
    - cbn [seq ofold]. unfold oget at 1. rewrite (Hv m) by lia. cbn [obind].
      assert (St : exists res1, (if negb (val m es) then Ok res
        else qx <- oget px m ;; qy <- oget py m ;; b <- edge_ok h qx qy i ;;
             if b then Ok res else oset res m false) = Ok res1 /\ length res1 = length px /\
        forall p, (p < length px)%nat -> nth_error res1 p = if (p =? m)%nat then Some (val p (es ++ [i])) else nth_error res p).
      { unfold val at 1. destruct (forallb (side h (nth m px 0) (nth m py 0)) es) eqn:Ev; cbn [negb].
        - rewrite !oget_nth by lia. cbn [obind]. rewrite edge_ok_eq by assumption. cbn [obind].
          destruct (side h (nth m px 0) (nth m py 0) i) eqn:Es.
          + exists res. split; [reflexivity|]. split; [exact Hr|]. intros p Hp'. destruct (Nat.eqb_spec p m) as [->|]; [|reflexivity].
            rewrite (Hv m) by lia. f_equal. unfold val. rewrite forallb_app, Ev. cbn [forallb]. rewrite Es. reflexivity.
          + unfold oset. destruct (Nat.ltb_spec m (length res)); [|lia]. eexists. split; [reflexivity|].
            split; [rewrite upd_length; exact Hr|]. intros p Hp'. rewrite nth_error_upd.
            destruct (Nat.ltb_spec m (length res)); [|lia].
            destruct (Nat.eqb_spec p m) as [->|]; cbn [andb]; [|reflexivity].
            f_equal. unfold val. rewrite forallb_app, Ev. cbn [forallb]. rewrite Es. reflexivity.
        - exists res. split; [reflexivity|]. split; [exact Hr|]. intros p Hp'. destruct (Nat.eqb_spec p m) as [->|]; [|reflexivity].
          rewrite (Hv m) by lia. f_equal. unfold val. rewrite forallb_app, Ev. reflexivity. }
      destruct St as (res1 & -> & Hl1 & H1). cbn [obind].
      destruct (IH (S m) res1 Hl1) as (res2 & E2 & Hl2 & H2); [lia| |].
      + intros p Hp' Hmp. rewrite H1 by lia. destruct (Nat.eqb_spec p m); [lia|]. apply Hv; lia.
      + exists res2. split; [exact E2|]. split; [exact Hl2|]. intros p Hp'. rewrite H2 by lia.
        destruct (Nat.leb_spec (S m) p), (Nat.leb_spec m p); try lia; [reflexivity| |].
        * rewrite H1 by lia. destruct (Nat.eqb_spec p m); [reflexivity|lia].
        * rewrite H1 by lia. destruct (Nat.eqb_spec p m); [lia|reflexivity]. }
  destruct (G k m res Hr Hm) as (res' & E & Hl & H).
  - intros p Hp' _. apply Hv; exact Hp'.
  - exists res'. split; [exact E|]. split; [exact Hl|]. intros p Hp'. rewrite H by exact Hp'.
    destruct (m <=? p)%nat; [reflexivity|]. apply Hv; exact Hp'.
Qed.

Lemma outer_ok is_ : forall es res, (forall i, In i is_ -> i + 1 < length (h_x h))%nat ->
  length res = length px ->
  (forall p, (p < length px)%nat -> nth_error res p = Some (val p es)) ->
  exists res', ofold (fun res i =>
      ofold (fun res p =>
          r <- oget res p ;;
          if negb r then Ok res
          else
            qx <- oget px p ;; qy <- oget py p ;;
            b <- edge_ok h qx qy i ;;
            if b then Ok res else oset res p false) (seq 0 (length px)) res) is_ res = Ok res' /\ (length res' = length px)%nat /\
    forall p, (p < length px)%nat -> nth_error res' p = Some (val p (es ++ is_)).
Proof.
  induction is_ as [|i is_ IH]; intros es res Hi Hr Hv.
  - exists res. rewrite app_nil_r. auto.
  - cbn [ofold]. destruct (inner_ok es i (Hi i (or_introl eq_refl)) (length px) res Hr Hv 0 eq_refl) as (res1 & -> & Hl1 & H1).
    cbn [obind]. destruct (IH (es ++ [i]) res1) as (res2 & E2 & Hl2 & H2).
    + intros j Hj. apply Hi. right; exact Hj.
    + exact Hl1.
    + intros p Hp'. rewrite H1 by exact Hp'. reflexivity.
    + exists res2. rewrite <- app_assoc in H2. auto.
Qed.

Lemma in_hull_vec_eq eps : h_validated h = true -> h_closed h = true -> h_x h <> [] ->
  exists res, in_convex_hull_vec eps px py h = Ok res /\ length res = length px /\
    forall p qx qy, nth_error px p = Some qx -> nth_error py p = Some qy ->
      exists b, nth_error res p = Some b /\ in_convex_hull eps qx qy h = Ok b.
Proof.
  intros Hv Hc Hne. unfold in_convex_hull_vec, validate. rewrite Hv. cbn [obind]. rewrite Hc, Hp, Nat.eqb_refl. cbn [check obind].
  destruct (Nat.eqb_spec (length py) 0) as [E|E].
  - cbn [obind ofold]. exists []. rewrite E. split; [reflexivity|]. split; [reflexivity|].
    intros p qx qy Hx _. exfalso. assert (p < length px)%nat by (apply nth_error_Some; congruence). lia.
  - assert (Eh : hull_edges h = Ok (seq 0 (length (h_x h) - 1))).
    { unfold hull_edges. clear Hlen. destruct (h_x h); [congruence|]. cbn [length]. do 2 f_equal. lia. }
    rewrite Eh. cbn [obind].
    destruct (outer_ok (seq 0 (length (h_x h) - 1)) [] (repeat true (length py))) as (res & Er & Hl & H).
    + intros i Hi. apply in_seq in Hi. lia.
    + rewrite repeat_length. lia.
    + intros p Hp'. apply nth_error_repeat. lia.
    + rewrite Hp in Er. exists res. split; [exact Er|]. split; [lia|]. intros p qx qy Hx Hy.
      assert (p < length px)%nat by (apply nth_error_Some; congruence).
      eexists. split; [apply H; assumption|]. rewrite in_hull_eq by assumption. unfold val. cbn [app].
      rewrite (nth_error_nth px p 0 Hx), (nth_error_nth py p 0 Hy). reflexivity.
Qed.
End V.
