From Coq Require Import String.
From Verif Require Import Base CatmergeModel CatmergeSpec CatmergeProofs.
Local Open Scope nat_scope.
Local Open Scope list_scope.

Lemma puts_any {T} (w : list T) : forall ids v, length ids = length w -> Forall (fun i => i < length v) ids ->
  exists r, ofold (fun v '(i, x) => oset v i x) (combine ids w) v = Ok r /\ length r = length v.
Proof.
  induction w as [|x w IH]; intros [|i ids] v L F; try discriminate.
  - exists v. auto.
  - cbn [combine ofold]. inversion_clear F as [|? ? Hi F']. unfold oset at 1. apply Nat.ltb_lt in Hi. rewrite Hi. cbn [obind].
    destruct (IH ids (upd v i x)) as (r & E & Lr); [cbn in L; lia| |].
    + eapply Forall_impl; [|exact F']. intros j. rewrite upd_length. auto.
    + exists r. rewrite upd_length in Lr. auto.
Qed.
Lemma put_any {T} (v : list T) ids w : length ids = length w -> Forall (fun i => i < length v) ids ->
  exists r, put v ids w = Ok r /\ length r = length v.
Proof.
  intros L F. destruct (puts_any w ids v L F) as (r & E & R). exists r. split; [|exact R].
  unfold put. rewrite (proj2 (forallb_lt _ _) F), L, Nat.eqb_refl. exact E.
Qed.
Lemma gather_In {T} (l : list T) ids v : In v (gather l ids) <-> exists i, In i ids /\ nth_error l i = Some v.
Proof.
  unfold gather. rewrite in_flat_map. split.
  - intros (i & Hi & H). exists i. split; [exact Hi|]. destruct (nth_error l i); [destruct H as [->|[]]; reflexivity|destruct H].
  - intros (i & Hi & H). exists i. split; [exact Hi|]. rewrite H. left. reflexivity.
Qed.
Lemma gather_NoDup (l ids : list nat) : NoDup l -> NoDup ids -> NoDup (gather l ids).
Proof.
  intros Nl. induction 1 as [|i ids Ni N IH]; [constructor|]. cbn. destruct (nth_error l i) eqn:E; [|exact IH].
  constructor; [|exact IH]. change (~ In n (gather l ids)). rewrite gather_In. intros (j & Hj & Ej).
  assert (i = j). { eapply NoDup_nth_error; [exact Nl| |congruence]. apply nth_error_Some. congruence. }
  subst. contradiction.
Qed.
Lemma Forall_gather (P : nat -> Prop) l ids : Forall P l -> Forall P (gather l ids).
Proof.
  intros F. apply Forall_forall. intros v H. apply gather_In in H. destruct H as (i & _ & E).
  apply (proj1 (Forall_forall _ _) F). eapply nth_error_In. exact E.
Qed.
Lemma nth_repeat {T} (a : T) n i : i < n -> nth_error (repeat a n) i = Some a.
Proof. revert i. induction n; intros [|i] H; cbn; try lia; [reflexivity|]. apply IHn. lia. Qed.

Lemma dist_ok {D} ncat sel keep n (rows : list (list D)) : Forall (fun i => i < ncat) sel -> length sel = n ->
  Forall (fun i => i < n) keep -> NoDup keep -> Forall (fun row => length row = n) rows ->
  exists td, omapl (dist_row ncat (gather sel keep) keep) rows = Ok td /\ length td = length rows /\
    (NoDup sel -> distances ncat sel keep rows td).
Proof.
  intros Fs Ls Fk Nk. induction 1 as [|row rows Lr F IH].
  - exists []. split; [reflexivity|]. split; [reflexivity|]. intros _. split; [reflexivity|]. intros [|r] row; discriminate.
  - destruct IH as (td & E & Lt & Hd).
    assert (Fk' : Forall (fun i => i < length sel) keep) by (now rewrite Ls).
    assert (Fr : Forall (fun i => i < length row) keep) by (now rewrite Lr).
    assert (LL : length (gather sel keep) = length (map Some (gather row keep))).
    { rewrite map_length, !gather_length by assumption. reflexivity. }
    assert (FF : Forall (fun i => i < length (repeat (@None D) ncat)) (gather sel keep)).
    { rewrite repeat_length. apply Forall_gather. exact Fs. }
    destruct (put_any (repeat None ncat) (gather sel keep) (map Some (gather row keep)) LL FF) as (t & Et & Ltt).
    exists (t :: td). cbn [omapl]. unfold dist_row at 1. rewrite pick_ok by exact Fr. cbn [obind]. rewrite Et. cbn [obind].
    rewrite E. split; [reflexivity|]. split; [cbn; lia|]. intros Ns. specialize (Hd Ns). destruct Hd as [_ Hd]. split; [cbn; lia|].
    intros [|r] row' H'; cbn in H'; [|apply Hd; exact H']. injection H' as <-. exists t. split; [reflexivity|].
    rewrite repeat_length in Ltt. split; [exact Ltt|].
    destruct (put_ok (repeat None ncat) (gather sel keep) (map Some (gather row keep)) LL (gather_NoDup _ _ Ns Nk) FF) as (t' & Et' & _ & P1 & P2).
    assert (t' = t) by congruence. subst t'. split.
    + intros i j d Hi Hj Hd'. apply In_nth_error in Hi. destruct Hi as [k Hk]. apply (P1 k).
      * rewrite (gather_nth _ _ _ _ Fk' Hk). exact Hj.
      * rewrite nth_error_map, (gather_nth _ _ _ _ Fr Hk), Hd'. reflexivity.
    + intros j Hj Nj. rewrite P2 by exact Nj. apply nth_repeat. exact Hj.
Qed.

Section Add2.
Context {C D : Type}.
Variables (qx : list C -> list C -> list C -> list C -> outcome (xmres D)) (ref_of : nat -> string).
Lemma sel_of_lt (cra : list C) sel : Forall (fun i => i < length cra) sel -> Forall (fun i => i < length cra) (sel_of cra sel).
Proof. intros F. destruct sel; [|exact F]. apply Forall_forall. intros i H. apply in_seq in H. lia. Qed.

Lemma add_ok force cached p cra cdec no_new sel ng x : cats p <> [] -> ngal p = Some ng -> length (ra p) = ng ->
  length cra = length cdec -> Forall (fun i => i < length cra) sel ->
  match_used qx force cached p ng cra cdec sel = Ok x ->
  good_match (length (sel_of cra sel)) ng x ->
  let s := sel_of cra sel in let n := length s in
  exists td, (NoDup s -> distances (length cra) s (kept no_new x n) (xd x) td) /\ length td = length (xd x) /\
  add_catalog_ qx ref_of force cached p cra cdec no_new sel = Ok
    (Pool (Some (ng + length (new_ones no_new x n))) (origin p ++ repeat (length (cats p) + 1) (length (new_ones no_new x n)))
       (ra p ++ gather (gather cra s) (new_ones no_new x n)) (dec p ++ gather (gather cdec s) (new_ones no_new x n))
       (cats p ++ [Cat (gather s (kept no_new x n)) (map (target x ng) (kept no_new x n)) [] td (ref_of (length (cats p) + 1))])).
Proof.
  intros Hc Hn Lra Lc Fs Ex G s n. unfold add_catalog_. rewrite Lc, Nat.eqb_refl. cbn [check obind].
  assert (Fs' : Forall (fun i => i < length cra) s) by (apply sel_of_lt; exact Fs).
  assert (Fd : Forall (fun i => i < length cdec) s) by (now rewrite <- Lc).
  rewrite <- Lc. fold (sel_of cra sel). fold s.
  destruct (dist_ok (length cra) s (kept no_new x n) n (xd x) Fs' eq_refl (kept_lt _ _ _) (kept_NoDup _ _ _) (proj2 (proj2 (proj2 G))))
    as (td & Et & Lt & Hd).
  exists td. split; [exact Hd|]. split; [exact Lt|].
  destruct (cats p) as [|c cs] eqn:Ec; [contradiction|]. rewrite Hn, !pick_ok by assumption. cbn [obind].
  unfold match_used in Ex. fold s in Ex. rewrite Ex. cbn [obind]. rewrite (loop_ok cra cdec no_new s _ x ng (ra p) (dec p) (origin p) Fs' Lc G Lra). cbn [obind]. unfold after.
  fold n. rewrite kept_tsel. rewrite pick_ok by (apply kept_lt). cbn [obind]. rewrite Et. cbn [obind].
  assert (Eng : (if no_new then ng else ng + length (new_ones no_new x n)) = ng + length (new_ones no_new x n)).
  { destruct no_new; [cbn; lia|reflexivity]. }
  rewrite Eng. reflexivity.
Qed.
Lemma first_ok force cached cra cdec no_new sel : length cra = length cdec -> Forall (fun i => i < length cra) sel ->
  let s := sel_of cra sel in
  add_catalog_ qx ref_of force cached empty_pool cra cdec no_new sel = Ok
    (Pool (Some (length s)) (repeat 1 (length s)) (gather cra s) (gather cdec s) [Cat s (seq 0 (length s)) [] [] (ref_of 1)]).
Proof.
  intros Lc Fs s. unfold add_catalog_, empty_pool. cbn [cats]. rewrite Lc, Nat.eqb_refl. cbn [check obind].
  rewrite <- Lc. fold (sel_of cra sel). fold s.
  assert (Fs' : Forall (fun i => i < length cra) s) by (apply sel_of_lt; exact Fs).
  assert (Fd : Forall (fun i => i < length cdec) s) by (now rewrite <- Lc).
  rewrite !pick_ok by assumption. reflexivity.
Qed.

Lemma mapped_NoDup no_new (x : xmres D) ng n : good_match n ng x -> NoDup (map (target x ng) (kept no_new x n)).
Proof.
  intros G. assert (K := kept_NoDup no_new x n). assert (L := kept_lt no_new x n). revert K L.
  generalize (kept no_new x n). intros l. induction 1 as [|i l Ni N IH]; intros F; cbn; [constructor|].
  inversion_clear F as [|? ? Hi F']. constructor; [|apply IH; exact F'].
  rewrite in_map_iff. intros (j & Ej & Hj). apply Ni.
  pose proof (proj1 (Forall_forall _ _) F' j Hj) as Hjn. cbn beta in Hjn.
  assert (j = i) by (eapply target_inj; eassumption). subst. exact Hj.
Qed.
Lemma mapped_lt no_new (x : xmres D) ng n : good_match n ng x ->
  Forall (fun g => g < ng + length (new_ones no_new x n)) (map (target x ng) (kept no_new x n)).
Proof.
  intros G. apply Forall_forall. intros g H. apply in_map_iff in H. destruct H as (i & <- & H). cbn beta.
  unfold kept, new_ones in *. destruct no_new.
  - apply filter_In in H. destruct H as [H A]. apply in_seq in H. unfold target. unfold alone in A.
    destruct (partner x i) as [k|] eqn:E; [|discriminate]. apply partner_spec in E. destruct E as [E _]. apply nth_error_In in E.
    apply (proj1 (Forall_forall _ _) (proj1 (proj2 (proj2 G)))) in E. destruct E as (k' & [= ->] & Hk). lia.
  - apply in_seq in H. apply target_bound; [exact G|lia].
Qed.
(* every new place is used *)
Lemma new_place (x : xmres D) ng n g : ng <= g < ng + length (filter (alone x) (seq 0 n)) -> exists i, i < n /\ alone x i = true /\ target x ng i = g.
Proof.
  induction n as [|n IH]; intros H; [cbn in H; lia|]. replace (S n) with (n + 1) in * by lia. rewrite filter_seq_S, app_length in H.
  destruct (alone x n) eqn:A; cbn [length] in H.
  - destruct (Nat.eq_dec g (ng + length (filter (alone x) (seq 0 n)))) as [->|N].
    + exists n. split; [lia|]. split; [exact A|]. unfold target. unfold alone in A. destruct (partner x n); [discriminate|]. reflexivity.
    + destruct IH as (i & Hi & Ha & Ht); [lia|]. exists i. repeat split; auto. lia.
  - destruct IH as (i & Hi & Ha & Ht); [lia|]. exists i. repeat split; auto. lia.
Qed.

Lemma valid_first force cached cra cdec no_new sel p' :
  add_catalog_ qx ref_of force cached empty_pool cra cdec no_new sel = Ok p' -> valid p'.
Proof.
  intros E. assert (Lc : length cra = length cdec).
  { unfold add_catalog_ in E. destruct (Nat.eqb_spec (length cra) (length cdec)); [assumption|discriminate]. }
  assert (Fs : Forall (fun i => i < length cra) sel).
  { unfold add_catalog_ in E. rewrite Lc, Nat.eqb_refl in E. cbn [check obind cats empty_pool] in E.
    destruct sel as [|a sel]; [constructor|].
    destruct (pick cra (a :: sel)) eqn:Ep; cbn [obind] in E; try discriminate. apply pick_inv in Ep. apply Ep. }
  rewrite first_ok in E by assumption. injection E as <-.
  assert (Fs' : Forall (fun i => i < length cra) (sel_of cra sel)) by (apply sel_of_lt; exact Fs).
  assert (Fd : Forall (fun i => i < length cdec) (sel_of cra sel)) by (now rewrite <- Lc).
  set (s := sel_of cra sel) in *. exists (length s). cbn [ngal ra dec origin cats].
  rewrite !gather_length, repeat_length by assumption. split; [reflexivity|]. do 3 (split; [reflexivity|]). split.
  - constructor; [|constructor]. split; [cbn; now rewrite seq_length|]. split; [apply seq_NoDup|].
    apply Forall_forall. intros g H. apply in_seq in H. lia.
  - intros g o H. assert (g < length s) by (rewrite <- (repeat_length 1 (length s)); apply nth_error_Some; congruence).
    rewrite nth_repeat in H by assumption. injection H as <-. eexists. split; [lia|]. split; [reflexivity|]. apply in_seq. lia.
Qed.
Lemma valid_plain (p p' : pool C D) : valid p -> add_catalog_plain ref_of p = Ok p' -> valid p'.
Proof.
  intros (n & Hn & L1 & L2 & L3 & Fc & Ho) E. unfold add_catalog_plain in E. rewrite Hn in E. injection E as <-.
  exists n. cbn [ngal ra dec origin cats]. do 4 (split; [first [reflexivity|assumption]|]). split.
  - apply Forall_app. split; [exact Fc|]. constructor; [|constructor]. split; [reflexivity|]. split; [apply seq_NoDup|].
    apply Forall_forall. intros g H. apply in_seq in H. lia.
  - intros g o H. destruct (Ho g o H) as (c & H1 & H2 & H3). exists c. split; [exact H1|]. split; [|exact H3].
    rewrite nth_error_app1; [exact H2|]. apply nth_error_Some. congruence.
Qed.
Lemma add_sel force cached p cra cdec no_new sel p' : cats p <> [] ->
  add_catalog_ qx ref_of force cached p cra cdec no_new sel = Ok p' ->
  length cra = length cdec /\ Forall (fun i => i < length cra) sel.
Proof.
  intros Hc E. unfold add_catalog_ in E. destruct (Nat.eqb_spec (length cra) (length cdec)) as [Lc|]; [|discriminate].
  split; [exact Lc|]. cbn [check obind] in E. destruct (cats p); [contradiction|]. destruct (ngal p); [|discriminate].
  destruct sel as [|a sel]; [constructor|].
  destruct (pick cra (a :: sel)) eqn:Ep; cbn [obind] in E; try discriminate. apply pick_inv in Ep. apply Ep.
Qed.
Lemma valid_more force cached p cra cdec no_new sel ng x p' : valid p -> cats p <> [] -> ngal p = Some ng ->
  match_used qx force cached p ng cra cdec sel = Ok x ->
  good_match (length (sel_of cra sel)) ng x ->
  add_catalog_ qx ref_of force cached p cra cdec no_new sel = Ok p' -> valid p'.
Proof.
  intros (n & Hn & L1 & L2 & L3 & Fc & Ho) Hc Hng Ex G E. assert (Q : n = ng) by congruence. rewrite Q in *. clear Q n.
  destruct (add_sel _ _ _ _ _ _ _ _ Hc E) as [Lc Fs].
  destruct (add_ok force cached p cra cdec no_new sel ng x Hc Hng L1 Lc Fs Ex G) as (td & _ & _ & E'). cbn zeta in E'.
  rewrite E' in E. injection E as <-. clear E'.
  set (s := sel_of cra sel) in *. set (m := length s) in *. set (w := new_ones no_new x m).
  assert (Fs' : Forall (fun i => i < length cra) s) by (apply sel_of_lt; exact Fs).
  assert (Fd : Forall (fun i => i < length cdec) s) by (now rewrite <- Lc).
  assert (Fw : Forall (fun i => i < m) w).
  { apply Forall_forall. intros i H. unfold w, new_ones in H. destruct no_new; [destruct H|]. apply filter_In in H. destruct H as [H _]. apply in_seq in H. lia. }
  exists (ng + length w). cbn [ngal ra dec origin cats]. rewrite !app_length, repeat_length.
  rewrite !gather_length by (rewrite ?gather_length by assumption; assumption).
  split; [reflexivity|]. split; [lia|]. split; [lia|]. split; [lia|]. split.
  - apply Forall_app. split.
    + eapply Forall_impl; [|exact Fc]. intros c (A1 & A2 & A3). split; [exact A1|]. split; [exact A2|].
      eapply Forall_impl; [|exact A3]. cbn. intros; lia.
    + constructor; [|constructor]. split; cbn [idi idm].
      * rewrite map_length, gather_length by (apply kept_lt). reflexivity.
      * split; [apply mapped_NoDup; exact G|apply mapped_lt; exact G].
  - intros g o H. destruct (Nat.lt_ge_cases g ng) as [L|L].
    + rewrite nth_error_app1 in H by lia. destruct (Ho g o H) as (c & H1 & H2 & H3). exists c. split; [exact H1|]. split; [|exact H3].
      rewrite nth_error_app1; [exact H2|]. apply nth_error_Some. congruence.
    + rewrite nth_error_app2 in H by lia.
      assert (Hg : g - length (origin p) < length w) by (rewrite <- (repeat_length (length (cats p) + 1) (length w)); apply nth_error_Some; congruence).
      rewrite nth_repeat in H by exact Hg. injection H as <-. eexists. split; [lia|]. split.
      * rewrite nth_error_app2 by lia. replace (length (cats p) + 1 - 1 - length (cats p)) with 0 by lia. reflexivity.
      * cbn [idm]. unfold w, new_ones in Hg. destruct no_new; [cbn in Hg; lia|].
        destruct (new_place x ng m g) as (i & Hi & _ & <-); [lia|]. apply in_map. unfold kept. apply in_seq. lia.
Qed.
End Add2.
