(* The loops over images and sources. *)
From Coq Require Import QArith Qround Qabs.
From Verif Require Import Base GenModel QstackModel QstackSpec QstackProofs QstackProofs2.
Local Open Scope nat_scope.

Lemma oget_at {A} (a : list A) x b n : n = length a -> oget (a ++ x :: b) n = Ok x.
Proof. intros ->. unfold oget. rewrite nth_error_app2, Nat.sub_diag by lia. reflexivity. Qed.
Lemma oset_at {A} (a : list A) x y b n : n = length a -> oset (a ++ x :: b) n y = Ok (a ++ y :: b).
Proof.
  intros ->. unfold oset. assert (T : (length a <? length (a ++ x :: b)) = true) by (apply Nat.ltb_lt; rewrite app_length; cbn; lia).
  rewrite T. f_equal. clear. induction a as [|z a IH]; cbn; [reflexivity|]. now rewrite IH.
Qed.
Lemma where_last_app l1 l2 i : where_last (l1 ++ l2) i =
  match where_last l2 i with Some p => Some (length l1 + p) | None => where_last l1 i end.
Proof.
  induction l1 as [|a l1 IH]; cbn; [destruct (where_last l2 i); reflexivity|]. rewrite IH.
  destruct (where_last l2 i) eqn:E; [reflexivity|]. reflexivity.
Qed.
Lemma where_last_none l i : ~ In i l -> where_last l i = None.
Proof.
  induction l as [|a l IH]; cbn; intros N; [reflexivity|]. rewrite IH by tauto.
  destruct (Nat.eqb_spec a i); [subst; tauto|reflexivity].
Qed.

Lemma firstn_next {A} (l : list A) k x : nth_error l k = Some x -> firstn (k + 1) l = firstn k l ++ [x].
Proof.
  revert k. induction l as [|a l IH]; intros [|k] H; cbn in *; try discriminate; [injection H as ->; reflexivity|].
  now rewrite IH.
Qed.

Lemma flat_map_in_ext {A B} (f g : A -> list B) l : (forall x, In x l -> f x = g x) -> flat_map f l = flat_map g l.
Proof. induction l as [|a l IH]; intros H; cbn; [reflexivity|]. rewrite (H a (or_introl eq_refl)). f_equal. apply IH. intros x I. apply H. right. exact I. Qed.

Lemma map_false a m : map (fun _ : nat => false) (seq a m) = repeat false m.
Proof. revert a. induction m; intros; cbn; [reflexivity|]. now rewrite IHm. Qed.

Section Loops.
Context {A : Type}.
Local Notation pixel := (option A).
Variables (h : nat) (kn offsets sections : bool) (imgs : list (image A)) (nsrc : nat).
Hypothesis good : Forall (good_image h nsrc) imgs.
Variables (cube0 : list (list pixel)) (ids0 : list nat).
Hypothesis start : length cube0 = length ids0.
Local Notation n := (2 * h + 1).
Local Notation scut := (sourcecut h kn).

Definition cuts (k i : nat) : list (list pixel) := sourcecuts h kn (firstn k imgs) i.
Definition cuts2 (k j i : nat) : list (list pixel) := if i <? j then cuts (k + 1) i else cuts k i.
Definition some {B} (l : list B) : bool := match l with [] => false | _ => true end.
Definition pairs (k j : nat) : list (nat * nat) :=
  flat_map (fun k => map (fun i => (k, i)) (filter (first_on h kn imgs k) (seq 0 nsrc))) (seq 0 k) ++
  map (fun i => (k, i)) (filter (first_on h kn imgs k) (seq 0 j)).
Definition state (k j : nat) : stack A :=
  let P := pairs k j in
  Stack n n (cube0 ++ map (fun '(_, i) => overlay (cuts2 k j i)) P) (ids0 ++ map snd P)
    (map (fun i => some (cuts2 k j i)) (seq 0 nsrc))
    (if offsets then flat_map (fun '(k, i) => offset_x imgs k i) P else [])
    (if offsets then flat_map (fun '(k, i) => offset_y imgs k i) P else [])
    (if sections then map fst P else []).

Lemma cuts_next k im i : nth_error imgs k = Some im -> cuts (k + 1) i = cuts k i ++ opt_list (scut im i).
Proof.
  intros H. unfold cuts, sourcecuts. rewrite (firstn_next imgs k im H), flat_map_app. cbn [flat_map]. now rewrite app_nil_r.
Qed.
Lemma some_exists (l : list (image A)) i : existsb (fun im => isSome (scut im i)) l = some (sourcecuts h kn l i).
Proof.
  induction l as [|im l IH]; cbn; [reflexivity|]. unfold sourcecuts in *. cbn. rewrite IH.
  destruct (scut im i); cbn; reflexivity.
Qed.
Lemma first_on_eq k im i : nth_error imgs k = Some im -> first_on h kn imgs k i = isSome (scut im i) && negb (some (cuts k i)).
Proof. intros H. unfold first_on. rewrite H, some_exists. reflexivity. Qed.
Lemma cuts_zero i : cuts 0 i = [].
Proof. reflexivity. Qed.
(* a source has a cutout on the first k images iff one of them is its first one *)
Lemma some_first k i : k <= length imgs -> (some (cuts k i) = true <-> exists k', k' < k /\ first_on h kn imgs k' i = true).
Proof.
  induction k as [|k IH]; intros K.
  - cbn. split; [discriminate|intros (k' & ? & _); lia].
  - assert (E : exists im, nth_error imgs k = Some im).
    { destruct (nth_error imgs k) eqn:E; [eauto|]. apply nth_error_None in E. lia. }
    destruct E as [im E]. replace (S k) with (k + 1) by lia. rewrite (cuts_next k im i E).
    specialize (IH ltac:(lia)). split.
    + intros H. destruct (some (cuts k i)) eqn:Ek.
      * destruct (proj1 IH eq_refl) as (k' & L & F). exists k'. split; [lia|exact F].
      * exists k. split; [lia|]. rewrite (first_on_eq k im i E), Ek. destruct (cuts k i); [|discriminate].
        cbn [app] in H. destruct (scut im i); [reflexivity|discriminate].
    + intros (k' & L & F). destruct (Nat.eq_dec k' k) as [->|].
      * rewrite (first_on_eq k im i E) in F. destruct (scut im i); [|discriminate]. cbn. destruct (cuts k i); reflexivity.
      * assert (S1 : some (cuts k i) = true) by (apply IH; exists k'; split; [lia|exact F]).
        destruct (cuts k i); [discriminate|reflexivity].
Qed.
Lemma first_unique k k' i : first_on h kn imgs k i = true -> first_on h kn imgs k' i = true -> k = k'.
Proof.
  assert (G : forall k k', k < k' -> first_on h kn imgs k i = true -> first_on h kn imgs k' i = true -> False).
  { clear k k'. intros k k' L H H'.
    assert (E : exists im, nth_error imgs k' = Some im). { unfold first_on in H'. destruct (nth_error imgs k'); [eauto|discriminate]. }
    destruct E as [im E]. assert (k' < length imgs) by (apply nth_error_Some; congruence).
    rewrite (first_on_eq k' im i E) in H'.
    assert (some (cuts k' i) = true) by (apply some_first; [lia|]; exists k; auto).
    rewrite H1 in H'. rewrite andb_false_r in H'. discriminate. }
  intros H H'. destruct (lt_eq_lt_dec k k') as [[L|]|L]; [exfalso; eauto|assumption|exfalso; eauto].
Qed.
Lemma pairs_In k j k' i : In (k', i) (pairs k j) <->
  first_on h kn imgs k' i = true /\ ((k' < k /\ i < nsrc) \/ (k' = k /\ i < j)).
Proof.
  unfold pairs. rewrite in_app_iff, in_flat_map, in_map_iff. split.
  - intros [(x & Hx & H)|(x & [= <- <-] & H)].
    + apply in_map_iff in H. destruct H as (y & [= <- <-] & H). apply filter_In in H. rewrite in_seq in Hx, H.
      split; [apply H|]. left. lia.
    + apply filter_In in H. rewrite in_seq in H. split; [apply H|]. right. lia.
  - intros (F & [[L1 L2]|[-> L]]).
    + left. exists k'. split; [apply in_seq; lia|]. apply in_map_iff. exists i. split; [reflexivity|].
      apply filter_In. split; [apply in_seq; lia|exact F].
    + right. exists i. split; [reflexivity|]. apply filter_In. split; [apply in_seq; lia|exact F].
Qed.
Lemma NoDup_filter {B} (f : B -> bool) l : NoDup l -> NoDup (filter f l).
Proof.
  induction 1 as [|x l N H IH]; cbn; [constructor|]. destruct (f x); [|exact IH]. constructor; [|exact IH].
  rewrite filter_In. tauto.
Qed.
Lemma pairs_NoDup k j : NoDup (map snd (pairs k j)).
Proof.
  assert (G : forall (l : list nat) (m : nat -> nat), NoDup l ->
    NoDup (map snd (flat_map (fun k => map (fun i => (k, i)) (filter (first_on h kn imgs k) (seq 0 (m k)))) l))).
  { intros l m N. induction N as [|x l Nx N IH]; cbn; [constructor|]. rewrite map_app. apply NoDup_app_intro.
    - rewrite map_map. cbn. rewrite map_id. apply NoDup_filter, seq_NoDup.
    - exact IH.
    - intros i H1 H2. rewrite map_map in H1. cbn in H1. rewrite map_id in H1. apply filter_In in H1.
      apply in_map_iff in H2. destruct H2 as ([k2 i2] & <- & H2). cbn in H1. apply in_flat_map in H2.
      destruct H2 as (x' & Hx & H2). apply in_map_iff in H2. destruct H2 as (y & [= <- <-] & H2). apply filter_In in H2.
      assert (x = x') by (eapply first_unique; [apply H1|apply H2]). subst. contradiction. }
  specialize (G (seq 0 k ++ [k]) (fun k' => if k' =? k then j else nsrc)).
  rewrite flat_map_app in G. cbn [flat_map] in G. rewrite Nat.eqb_refl, app_nil_r in G.
  unfold pairs. erewrite flat_map_in_ext; [apply G|].
  - rewrite <- seq_S. apply seq_NoDup.
  - intros k' H. cbn beta. apply in_seq in H. destruct (Nat.eqb_spec k' k); [lia|]. reflexivity.
Qed.
Lemma pairs_snd k j i : k < length imgs -> j <= nsrc -> i < nsrc -> (In i (map snd (pairs k j)) <-> some (cuts2 k j i) = true).
Proof.
  intros K J I. rewrite in_map_iff. unfold cuts2. split.
  - intros ([k' i'] & <- & H). cbn [snd]. apply pairs_In in H. destruct H as (F & H). cbn in I.
    destruct (Nat.ltb_spec i' j); apply some_first; try lia; exists k'; (split; [lia|exact F]).
  - destruct (Nat.ltb_spec i j); intros H0; apply some_first in H0; try lia; destruct H0 as (k' & L & F);
      exists (k', i); (split; [reflexivity|]); apply pairs_In; (split; [exact F|lia]).
Qed.
Lemma pairs_next k j : pairs k (j + 1) = pairs k j ++ (if first_on h kn imgs k j then [(k, j)] else []).
Proof.
  unfold pairs. rewrite Nat.add_1_r, seq_S, filter_app, map_app, <- app_assoc. f_equal. f_equal. cbn.
  destruct (first_on h kn imgs k j); reflexivity.
Qed.
Lemma fill_bad_eq (p c : list pixel) : fill_bad p c = map (fun '(a, b) => first_good a b) (combine p c).
Proof. unfold fill_bad. apply map_ext. intros [a b]. destruct a; reflexivity. Qed.
Lemma overlay_length l m : Forall (fun c : list pixel => length c = m) l -> l <> [] -> length (overlay l) = m.
Proof.
  induction 1 as [|c l H F IH]; [contradiction|]. intros _. destruct l as [|d l]; [exact H|].
  change (length (map (fun '(a, b) => first_good a b) (combine c (overlay (d :: l)))) = m).
  rewrite map_length, combine_length, H, IH by discriminate. lia.
Qed.
Lemma overlay_snoc l (c : list pixel) m : Forall (fun c : list pixel => length c = m) l -> length c = m -> l <> [] ->
  overlay (l ++ [c]) = fill_bad (overlay l) c.
Proof.
  intros F Hc. rewrite fill_bad_eq. induction F as [|d l Hd F IH]; [contradiction|]. intros _.
  destruct l as [|e l]; [reflexivity|]. specialize (IH ltac:(discriminate)).
  change (overlay ((d :: e :: l) ++ [c])) with (map (fun '(a, b) => first_good a b) (combine d (overlay ((e :: l) ++ [c])))).
  rewrite IH.
  change (overlay (d :: e :: l)) with (map (fun '(a, b) => first_good a b) (combine d (overlay (e :: l)))).
  assert (L : length (overlay (e :: l)) = m) by (apply overlay_length; [exact F|discriminate]).
  revert L Hd Hc. generalize (overlay (e :: l)). clear. intros o. revert d c m.
  induction o as [|x o IH]; intros [|y d] [|z c] m; cbn; try reflexivity; intros; try congruence; try lia.
  f_equal; [destruct x, y; reflexivity|]. apply (IH d c (Nat.pred m)); lia.
Qed.
Lemma scut_length (im : image A) i c : scut im i = Some c -> length c = n * n.
Proof.
  unfold sourcecut. destruct (nth_error (px im) i), (nth_error (py im) i); try discriminate.
  destruct (_ && _); [|discriminate]. intros [= <-]. apply window_length.
Qed.
Lemma cuts_length k i : Forall (fun c : list pixel => length c = n * n) (cuts k i).
Proof.
  unfold cuts, sourcecuts. apply Forall_forall. intros c H. apply in_flat_map in H. destruct H as (im & _ & H).
  destruct (scut im i) eqn:E; [|destruct H]. destruct H as [<-|[]]. eapply scut_length. exact E.
Qed.
Lemma existsb_bad (w : list pixel) : existsb bad w = negb (forallb (fun p => negb (bad p)) w).
Proof. induction w as [|p w IH]; cbn; [reflexivity|]. rewrite IH. destruct (bad p); reflexivity. Qed.

Lemma one_ok k im j : nth_error imgs k = Some im -> j < nsrc ->
  stack_one h kn offsets sections k im (state k j) j = Ok (state k (j + 1)).
Proof.
  intros E J. assert (K : k < length imgs) by (apply nth_error_Some; congruence).
  assert (G : good_image h nsrc im) by (apply (proj1 (Forall_forall _ _) good); eapply nth_error_In; exact E).
  destruct G as (W & H & Lx & Ly & Fx & Fy).
  assert (Ex : exists x, nth_error (px im) j = Some x).
  { destruct (nth_error (px im) j) eqn:Ex; [eauto|]. apply nth_error_None in Ex. lia. }
  assert (Ey : exists y, nth_error (py im) j = Some y).
  { destruct (nth_error (py im) j) eqn:Ey; [eauto|]. apply nth_error_None in Ey. lia. }
  destruct Ex as [x Ex], Ey as [y Ey].
  pose proof (proj1 (Forall_forall _ _) Fx x (nth_error_In _ _ Ex)) as [Rx Mx].
  pose proof (proj1 (Forall_forall _ _) Fy y (nth_error_In _ _ Ey)) as [Ry My].
  unfold stack_one. rewrite (cutout_ok h im j x y W H Ex Ey Rx Mx Ry My). cbn [obind].
  assert (Sc : scut im j = if touches h im (qround x) (qround y) && (kn || forallb (fun p => negb (bad p)) (window h im (qround x) (qround y)))
      then Some (window h im (qround x) (qround y)) else None).
  { unfold sourcecut. rewrite Ex, Ey. reflexivity. }
  assert (Same : scut im j = None -> state k (j + 1) = state k j).
  { intros Z. assert (C2 : forall i, cuts2 k (j + 1) i = cuts2 k j i).
    { intros i. unfold cuts2. destruct (Nat.ltb_spec i (j + 1)), (Nat.ltb_spec i j); try reflexivity; try lia.
      assert (i = j) by lia. subst i. rewrite (cuts_next k im j E), Z. cbn. apply app_nil_r. }
    assert (P2 : pairs k (j + 1) = pairs k j).
    { rewrite pairs_next, (first_on_eq k im j E), Z. cbn. apply app_nil_r. }
    unfold state. cbn zeta. rewrite P2. f_equal.
    - f_equal. apply map_ext. intros [? i]. now rewrite C2.
    - apply map_ext. intros i. now rewrite C2. }
  destruct (touches h im (qround x) (qround y)) eqn:Ht; [|rewrite Same by exact Sc; reflexivity].
  set (w := window h im (qround x) (qround y)) in *. rewrite existsb_bad.
  assert (Dk : negb kn && negb (forallb (fun p => negb (bad p)) w) = negb (kn || forallb (fun p => negb (bad p)) w)) by (now rewrite negb_orb).
  rewrite Dk. destruct (kn || forallb (fun p => negb (bad p)) w) eqn:Ek; cbn [negb andb] in Sc |- *;
    [|rewrite Same by exact Sc; reflexivity].
  (* the cutout is used *)
  set (P := pairs k j).
  assert (Fj : oget (found (state k j)) j = Ok (some (cuts k j))).
  { unfold state, oget. cbn [found]. rewrite nth_error_map, (nth_error_nth' _ 0), seq_nth by (rewrite ?seq_length; lia). cbn.
    unfold cuts2. rewrite Nat.ltb_irrefl. reflexivity. }
  assert (C2 : forall i, i <> j -> cuts2 k (j + 1) i = cuts2 k j i).
  { intros i N. unfold cuts2. destruct (Nat.ltb_spec i (j + 1)), (Nat.ltb_spec i j); try reflexivity; lia. }
  assert (Cj : cuts2 k (j + 1) j = cuts k j ++ [w]).
  { unfold cuts2. destruct (Nat.ltb_spec j (j + 1)); [|lia]. rewrite (cuts_next k im j E), Sc. reflexivity. }
  assert (Fo : first_on h kn imgs k j = negb (some (cuts k j))) by (rewrite (first_on_eq k im j E), Sc; reflexivity).
  assert (Found : forall b, oset (found (state k j)) j true = Ok b -> b = map (fun i => some (cuts2 k (j + 1) i)) (seq 0 nsrc)).
  { intros b. unfold state, oset. cbn [found]. rewrite map_length, seq_length. destruct (Nat.ltb_spec j nsrc); [|lia].
    intros [= <-]. apply list_eq_nth_error. intros i. destruct (Nat.eq_dec i j) as [->|N].
    - rewrite nth_error_upd_same by (rewrite map_length, seq_length; lia).
      rewrite nth_error_map, (nth_error_nth' _ 0), seq_nth by (rewrite ?seq_length; lia). cbn. rewrite Cj. destruct (cuts k j); reflexivity.
    - rewrite nth_error_upd_other by exact N. rewrite !nth_error_map. destruct (nth_error (seq 0 nsrc) i) as [i'|] eqn:Ei; [|reflexivity].
      assert (i' = i). { assert (i < nsrc) by (rewrite <- (seq_length nsrc 0); apply nth_error_Some; congruence).
        rewrite (nth_error_nth' _ 0), seq_nth in Ei by (rewrite ?seq_length; lia). injection Ei. lia. }
      subst. cbn. now rewrite C2. }
  rewrite Fj. cbn [obind]. destruct (some (cuts k j)) eqn:Es; cbn [negb].
  - (* found before *)
    assert (Hin : In j (map snd P)) by (apply pairs_snd; [lia|lia|lia|]; unfold cuts2; rewrite Nat.ltb_irrefl; exact Es).
    apply in_map_iff in Hin. destruct Hin as ([k' j'] & Ej & Hin). cbn in Ej. subst j'.
    apply in_split in Hin. destruct Hin as (P1 & P2 & EP).
    assert (ND : NoDup (map snd P)) by apply pairs_NoDup.
    rewrite EP, map_app in ND. cbn in ND.
    assert (N1 : ~ In j (map snd P1)). { intros X. apply NoDup_remove_2 in ND. apply ND. apply in_or_app. auto. }
    assert (N2 : ~ In j (map snd P2)). { intros X. apply NoDup_remove_2 in ND. apply ND. apply in_or_app. auto. }
    unfold state at 1 2 3 4 5 6 7 8 9 10. cbn zeta. fold P. cbn [ids planes found odx ody osect dims1 dims2].
    rewrite EP at 1. rewrite map_app. cbn [map snd]. rewrite !where_last_app. cbn [where_last].
    rewrite (where_last_none _ _ N2), Nat.eqb_refl, Nat.add_0_r, map_length.
    assert (Pl : cube0 ++ map (fun '(_, i) => overlay (cuts2 k j i)) P =
        (cube0 ++ map (fun '(_, i) => overlay (cuts2 k j i)) P1) ++ overlay (cuts k j) :: map (fun '(_, i) => overlay (cuts2 k j i)) P2).
    { rewrite EP, map_app, <- app_assoc. cbn [map].
      replace (cuts2 k j j) with (cuts k j) by (unfold cuts2; now rewrite Nat.ltb_irrefl). reflexivity. }
    assert (Lid : length ids0 + length P1 = length (cube0 ++ map (fun '(_, i) => overlay (cuts2 k j i)) P1)) by (rewrite app_length, map_length; lia).
    assert (T : (length ids0 + length P1 <? length (cube0 ++ map (fun '(_, i) => overlay (cuts2 k j i)) P)) = true).
    { rewrite Pl, app_length, <- Lid. cbn [length]. apply Nat.ltb_lt. lia. }
    rewrite T. cbn [check obind]. rewrite Pl, (oget_at _ _ _ _ Lid). cbn [obind]. rewrite (oset_at _ _ _ _ _ Lid). cbn [obind].
    assert (P' : pairs k (j + 1) = P) by (rewrite pairs_next, Fo; apply app_nil_r).
    unfold state. cbn zeta. rewrite P'. f_equal. f_equal.
    + rewrite EP, map_app, <- app_assoc. cbn [map]. f_equal. f_equal.
      * apply map_ext_in. intros [k2 i2] I. rewrite C2; [reflexivity|]. intros ->. apply N1. apply in_map_iff. exists (k2, j). auto.
      * f_equal.
        -- rewrite Cj. symmetry. apply overlay_snoc with (n * n); [apply cuts_length|eapply scut_length; exact Sc|]. intros Z. rewrite Z in Es. discriminate.
        -- apply map_ext_in. intros [k2 i2] I. rewrite C2; [reflexivity|]. intros ->. apply N2. apply in_map_iff. exists (k2, j). auto.
    + apply map_ext. intros i. destruct (Nat.eq_dec i j) as [->|N]; [|now rewrite C2].
      rewrite Cj. unfold cuts2. rewrite Nat.ltb_irrefl, Es. destruct (cuts k j); reflexivity.
  - (* first time *)
    assert (Nin : ~ In j (map snd P)).
    { intros X. apply pairs_snd in X; [|lia|lia|lia]. unfold cuts2 in X. rewrite Nat.ltb_irrefl, Es in X. discriminate. }
    assert (P' : pairs k (j + 1) = P ++ [(k, j)]) by (rewrite pairs_next, Fo; reflexivity).
    assert (Cz : cuts k j = []) by (destruct (cuts k j); [reflexivity|discriminate]).
    destruct (oset (found (state k j)) j true) as [b| | | |] eqn:Eb;
      try (unfold oset, state in Eb; cbn [found] in Eb; rewrite map_length, seq_length in Eb; destruct (Nat.ltb_spec j nsrc); [discriminate|lia]).
    specialize (Found b eq_refl). cbn [obind].
    assert (Pu : push (state k j) n w = Ok (n, n, planes (state k j) ++ [w])).
    { unfold push. cbn [dims1 dims2 state]. destruct (planes (state k j)); [reflexivity|]. rewrite Nat.eqb_refl. reflexivity. }
    rewrite Pu. cbn [obind]. unfold oget. rewrite Ex, Ey. cbn [obind].
    assert (Ox : offset_x imgs k j = [offset x]) by (unfold offset_x; rewrite E, Ex; reflexivity).
    assert (Oy : offset_y imgs k j = [offset y]) by (unfold offset_y; rewrite E, Ey; reflexivity).
    unfold state. cbn zeta. rewrite P'. fold P. cbn [ids planes found odx ody osect dims1 dims2].
    rewrite !map_app, !flat_map_app. cbn [map flat_map snd fst]. rewrite Ox, Oy, !app_nil_r, Cj, Cz. cbn [app overlay].
    f_equal. rewrite <- !app_assoc. f_equal.
    + f_equal. f_equal. apply map_ext_in. intros [k2 i2] I. rewrite C2; [reflexivity|]. intros ->. apply Nin. apply in_map_iff. exists (k2, j). auto.
    + exact Found.
    + destruct offsets; reflexivity.
    + destruct offsets; reflexivity.
    + destruct sections; reflexivity.
Qed.

Lemma state_next k : k < length imgs -> state k nsrc = state (k + 1) 0.
Proof.
  intros K. assert (P : pairs k nsrc = pairs (k + 1) 0).
  { unfold pairs. rewrite Nat.add_1_r, seq_S, flat_map_app. cbn [flat_map filter map seq Nat.add]. now rewrite !app_nil_r. }
  assert (C : forall i, i < nsrc -> cuts2 k nsrc i = cuts2 (k + 1) 0 i).
  { intros i I. unfold cuts2. destruct (Nat.ltb_spec i nsrc); [reflexivity|lia]. }
  unfold state. cbn zeta. rewrite P. f_equal.
  - f_equal. apply map_ext_in. intros [k' i] I. apply pairs_In in I. rewrite C; [reflexivity|lia].
  - apply map_ext_in. intros i I. apply in_seq in I. rewrite C; [reflexivity|lia].
Qed.
Lemma inner_ok k im : nth_error imgs k = Some im ->
  ofold (stack_one h kn offsets sections k im) (seq 0 nsrc) (state k 0) = Ok (state k nsrc).
Proof.
  intros E. enough (G : forall m j, j + m = nsrc -> ofold (stack_one h kn offsets sections k im) (seq j m) (state k j) = Ok (state k nsrc)) by (apply G; lia).
  induction m as [|m IH]; intros j H; cbn [seq ofold].
  - f_equal. f_equal. lia.
  - rewrite (one_ok k im j E) by lia. cbn [obind]. rewrite Nat.add_1_r. apply IH. lia.
Qed.
Lemma outer_ok : ofold (fun s iimg => im <- oget imgs iimg ;; ofold (stack_one h kn offsets sections iimg im) (seq 0 nsrc) s)
    (seq 0 (length imgs)) (state 0 0) = Ok (state (length imgs) 0).
Proof.
  enough (G : forall m k, k + m = length imgs ->
    ofold (fun s iimg => im <- oget imgs iimg ;; ofold (stack_one h kn offsets sections iimg im) (seq 0 nsrc) s) (seq k m) (state k 0) =
    Ok (state (length imgs) 0)) by (apply G; lia).
  induction m as [|m IH]; intros k H; cbn [seq ofold].
  - f_equal. f_equal. lia.
  - assert (E : exists im, nth_error imgs k = Some im).
    { destruct (nth_error imgs k) eqn:E; [eauto|]. apply nth_error_None in E. lia. }
    destruct E as [im E]. unfold oget at 1. rewrite E. cbn [obind]. rewrite (inner_ok k im E). cbn [obind].
    rewrite state_next, Nat.add_1_r by lia. apply IH. lia.
Qed.
Lemma state_start : state 0 0 = Stack n n cube0 ids0 (repeat false nsrc) [] [] [].
Proof.
  unfold state, pairs. cbn. rewrite !app_nil_r. f_equal.
  - unfold cuts2. cbn. apply map_false.
  - destruct offsets; reflexivity.
  - destruct offsets; reflexivity.
  - destruct sections; reflexivity.
Qed.
Lemma qstack_ok d1 d2 : (cube0 <> [] -> d1 = n /\ d2 = n) ->
  let P := found_pairs h kn imgs nsrc in
  qstack h kn offsets sections imgs nsrc d1 d2 cube0 ids0 =
  Ok (Stack n n (cube0 ++ map (fun '(_, i) => overlay (sourcecuts h kn imgs i)) P) (ids0 ++ map snd P)
        (map (fun i => some (sourcecuts h kn imgs i)) (seq 0 nsrc))
        (if offsets then flat_map (fun '(k, i) => offset_x imgs k i) P else [])
        (if offsets then flat_map (fun '(k, i) => offset_y imgs k i) P else [])
        (if sections then map fst P else [])).
Proof.
  intros D P. unfold qstack. assert (Ed : (match cube0 with [] => (n, n) | _ => (d1, d2) end) = (n, n)).
  { destruct cube0; [reflexivity|]. destruct D as [-> ->]; [discriminate|reflexivity]. }
  cbn zeta. rewrite Ed. rewrite <- state_start, outer_ok. f_equal.
  assert (EP : pairs (length imgs) 0 = P) by (unfold pairs; cbn; apply app_nil_r).
  unfold state. cbn zeta. rewrite EP. unfold cuts2, cuts. cbn [Nat.ltb Nat.leb]. rewrite firstn_all. reflexivity.
Qed.
End Loops.
