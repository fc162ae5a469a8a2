(* Lemmas on convex hulls, part 5: distinct vertices, order of the points, polygons given by the user. *)
From Coq Require Import ZifyBool.
From Verif Require Import Base IndexModel VecModel HullModel HullSpec HullProofs HullProofs2 HullProofs3 HullProofs4.
Open Scope Z_scope.

Lemma edge_cons p l a b : edge l a b -> edge (p :: l) a b.
Proof. intros (l1 & l2 & ->). exists (p :: l1), l2. reflexivity. Qed.
Lemma up_gt l : forall p, (forall a b, edge (p :: l) a b -> lt2 a b) -> forall q, In q l -> lt2 p q.
Proof.
  induction l as [|b l IH]; intros p Hup q Hq; [destruct Hq|]. destruct Hq as [<-|Hq].
  - apply Hup. exists [], l. reflexivity.
  - eapply lt2_trans; [apply (Hup p b); exists [], l; reflexivity|]. apply IH; [|exact Hq].
    intros a' b' H. apply Hup. apply edge_cons. exact H.
Qed.
Lemma down_lt l : forall p, (forall a b, edge (p :: l) a b -> lt2 b a) -> forall q, In q l -> lt2 q p.
Proof.
  induction l as [|b l IH]; intros p Hup q Hq; [destruct Hq|]. destruct Hq as [<-|Hq].
  - apply Hup. exists [], l. reflexivity.
  - eapply lt2_trans; [|apply (Hup p b); exists [], l; reflexivity]. apply IH; [|exact Hq].
    intros a' b' H. apply Hup. apply edge_cons. exact H.
Qed.
Lemma up_NoDup l : (forall a b, edge l a b -> lt2 a b) -> NoDup l.
Proof.
  induction l as [|p l IH]; intros H; [constructor|]. constructor.
  - intros Hin. exact (lt2_irrefl p (up_gt l p H p Hin)).
  - apply IH. intros a b He. apply H. apply edge_cons. exact He.
Qed.
Lemma down_NoDup l : (forall a b, edge l a b -> lt2 b a) -> NoDup l.
Proof.
  induction l as [|p l IH]; intros H; [constructor|]. constructor.
  - intros Hin. exact (lt2_irrefl p (down_lt l p H p Hin)).
  - apply IH. intros a b He. apply H. apply edge_cons. exact He.
Qed.
Lemma inner_corner p l z v : In v l -> v <> p -> exists a c, corner (p :: l ++ [z]) a v c.
Proof.
  intros Hv Hp. apply in_split in Hv as (l1 & l2 & ->). 
  destruct l1 as [|x l1].
  - destruct l2 as [|y l2]; [exists p, z, [], []; reflexivity|exists p, y, [], (l2 ++ [z]); reflexivity].
  - destruct (exists_last (l := x :: l1)) as (l' & w & E); [congruence|]. rewrite E.
    destruct l2 as [|y l2].
    + exists w, z, (p :: l'), []. cbn [app]. rewrite <- !app_assoc. reflexivity.
    + exists w, y, (p :: l'), (l2 ++ [z]). cbn [app]. rewrite <- !app_assoc. reflexivity.
Qed.
Lemma corner_edges l a b c : corner l a b c -> edge l a b /\ edge l b c.
Proof.
  intros (l1 & l2 & ->). split; [exists l1, (c :: l2); reflexivity|].
  exists (l1 ++ [a]), l2. rewrite <- app_assoc. reflexivity.
Qed.
Section H.
Variable pts : list pt.
Hypothesis Hne : pts <> [].
Hypothesis Hs : StronglySorted le2 pts.

Lemma vhull_distinct : ~ collinear pts -> NoDup (tl (vhull pts)).
Proof.
  intros Hn. destruct (vhull_shape pts Hne Hs Hn) as (p0 & v1 & z & A & B & EV & (A' & EA & HA) & HB & HcA & HcB).
  pose proof (vhull_left pts Hne Hs) as Hl. pose proof (vhull_incl pts Hne Hs) as Hi.
  assert (EV' : vhull pts = A' ++ z :: B ++ [p0]).
  { rewrite EV. change (p0 :: v1 :: A ++ B ++ [p0]) with ((p0 :: v1 :: A) ++ B ++ [p0]).
    rewrite EA, <- app_assoc. reflexivity. }
  assert (EdA : forall a b, edge (p0 :: v1 :: A) a b -> edge (vhull pts) a b).
  { intros x y H. rewrite EV', edge_join. left. rewrite <- EA. exact H. }
  assert (EdB : forall a b, edge (z :: B ++ [p0]) a b -> edge (vhull pts) a b).
  { intros x y H. rewrite EV', edge_join. right. exact H. }
  rewrite EV. cbn [tl]. change (v1 :: A ++ B ++ [p0]) with ((v1 :: A) ++ (B ++ [p0])).
  apply NoDup_app_intro.
  - apply up_NoDup in HA. inversion HA; assumption.
  - apply down_NoDup in HB. inversion HB; assumption.
  - intros v Hv Hv'.
    assert (Hp0 : v <> p0).
    { intros ->. exact (lt2_irrefl _ (up_gt _ _ HA _ Hv)). }
    assert (Hz : v <> z).
    { intros ->. exact (lt2_irrefl _ (down_lt _ _ HB _ Hv')). }
    assert (HvB : In v B). { apply in_app_or in Hv' as [H|[H|[]]]; [exact H|congruence]. }
    assert (HvA : In v A').
    { assert (In v (p0 :: v1 :: A)) by (right; exact Hv). rewrite EA in H. apply in_app_or in H as [H|[H|[]]]; [exact H|congruence]. }
    destruct A' as [|p0' A']; [destruct HvA|]. cbn [app] in EA. injection EA as <- EA.
    destruct HvA as [HvA|HvA]; [congruence|].
    destruct (inner_corner p0 A' z v HvA Hp0) as (a & b & Hc1). rewrite <- EA in Hc1.
    destruct (inner_corner z B p0 v HvB Hz) as (c & d & Hc2).
    pose proof (corner_edges _ _ _ _ Hc1) as (E1 & E2). pose proof (corner_edges _ _ _ _ Hc2) as (E3 & E4).
    pose proof (HcA _ _ _ Hc1) as P1. pose proof (HcB _ _ _ Hc2) as P2.
    pose proof (HA _ _ E1) as O1. pose proof (HA _ _ E2) as O2. pose proof (HB _ _ E3) as O3. pose proof (HB _ _ E4) as O4.
    apply EdA in E1, E2. apply EdB in E3, E4.
    assert (Ia : In a pts) by (apply Hi; apply edge_In in E1; tauto).
    assert (Ib : In b pts) by (apply Hi; apply edge_In in E2; tauto).
    assert (Ic : In c pts) by (apply Hi; apply edge_In in E3; tauto).
    assert (Id : In d pts) by (apply Hi; apply edge_In in E4; tauto).
    pose proof (Hl _ _ c E1 Ic) as L1. pose proof (Hl _ _ c E2 Ic) as L2.
    pose proof (Hl _ _ a E3 Ia) as L3. pose proof (Hl _ _ b E3 Ib) as L4.
    pose proof (Hl _ _ b E4 Ib) as L5. pose proof (Hl _ _ d E2 Id) as L6.
    (* u = v - a, b - v, c - v, v - d are positive *)
    unfold lt2 in *.
    assert (Q1 : area2 a v b = crv (sub v a) (sub b v)) by (unfold area2, crv, sub; cbn [fst snd]; ring).
    assert (Q2 : area2 a v c = crv (sub v a) (sub c v)) by (unfold area2, crv, sub; cbn [fst snd]; ring).
    assert (Q3 : area2 c v a = - crv (sub v a) (sub c v)) by (unfold area2, crv, sub; cbn [fst snd]; ring).
    assert (Q4 : area2 v b c = crv (sub b v) (sub c v)) by (unfold area2, crv, sub; cbn [fst snd]; ring).
    assert (crv (sub v a) (sub c v) = 0) by lia.
    rewrite Q1 in P1. rewrite Q4 in L2.
    pose proof (crv_trans_l _ _ _ O1 O2 O3 P1 L2). lia.
Qed.
End H.

(* ---- the order of the points does not matter ---- *)
Lemma collinear_perm l m : Permutation l m -> collinear l -> collinear m.
Proof. intros P H a b c Ha Hb Hc. apply Permutation_sym in P. apply H; eapply Permutation_in; eauto. Qed.
Lemma in_hull_perm l m q : Permutation l m -> in_hull_of l q -> in_hull_of m q.
Proof. intros P H a b c Hall. apply H. intros p Hp. apply Hall. eapply Permutation_in; eauto. Qed.
Lemma in_hull_member l q : In q l -> in_hull_of l q.
Proof. intros H a b c Hall. auto. Qed.
Lemma points_nil x y : length x = length y -> points x y = [] -> x = [].
Proof. destruct x, y; cbn; congruence. Qed.

Lemma build_facts s x y : length x = length y -> x <> [] -> sorts (less x y) s ->
  exists h, build_convex_hull s x y = Ok h /\ h_validated h = true /\ h_closed h = true /\ h_orient h = 1 /\
    length (h_x h) = length (h_y h) /\ h_x h <> [] /\
    hd_error (vertices h) = hd_error (rev (vertices h)) /\
    incl (vertices h) (points x y) /\
    (forall a b q, edge (vertices h) a b -> In q (points x y) -> 0 <= area2 a b q) /\
    (~ collinear (points x y) ->
      (forall a b c, corner (around (vertices h)) a b c -> 0 < area2 a b c) /\
      NoDup (tl (vertices h)) /\
      forall q, (forall a b, edge (vertices h) a b -> 0 <= area2 a b q) <-> in_hull_of (points x y) q) /\
    (collinear (points x y) -> (2 <= length x)%nat -> exists a b, vertices h = [a; b; a] /\ In a (points x y) /\ In b (points x y) /\
      forall p, In p (points x y) -> le2 a p /\ le2 p b).
Proof.
  intros Hl Hx Hst. destruct (build_eq s x y Hl Hx Hst) as (h & pts & E & Hv & Hc & Ho & Hlen & P & Hs & EV).
  assert (Hne : pts <> []).
  { intros ->. apply Permutation_sym, Permutation_nil in P. apply Hx. apply (points_nil x y Hl P). }
  exists h. rewrite EV. split; [exact E|]. do 4 (split; [assumption|]).
  destruct (vhull_closed pts Hne) as (p0 & F1 & F2).
  split. { intros E0. unfold vertices in EV. rewrite E0 in EV. cbn [combine] in EV. rewrite <- EV in F1. discriminate. }
  split; [congruence|].
  split. { intros q Hq. apply Permutation_sym in P. eapply Permutation_in; [exact P|]. apply (vhull_incl pts Hne Hs). exact Hq. }
  split. { intros a b q He Hq. eapply (vhull_left pts Hne Hs); [exact He|]. eapply Permutation_in; eauto. }
  split.
  - intros Hn. assert (Hn' : ~ collinear pts).
    { intros H. apply Hn. eapply collinear_perm; [apply Permutation_sym; exact P|exact H]. }
    split; [intros a b c; apply (vhull_corners pts Hne Hs); exact Hn'|].
    split; [apply (vhull_distinct pts Hne Hs Hn')|].
    intros q. rewrite (vhull_is_hull pts Hne Hs q Hn').
    split; apply in_hull_perm; [apply Permutation_sym|]; exact P.
  - intros Hcol Hn. destruct (hd_rev_exists pts Hne) as (a & z & H0 & Hz). exists a, z.
    pose proof (Permutation_length P) as PL. unfold points, pt in PL. rewrite combine_length in PL.
    split; [apply (vhull_collinear pts Hne Hs); auto; [eapply collinear_perm; eauto|unfold pt in *; lia]|].
    assert (Ia : In a pts) by (destruct pts; [discriminate|]; injection H0 as ->; left; reflexivity).
    assert (Iz : In z pts) by (apply in_rev; destruct (rev pts); [discriminate|]; injection Hz as ->; left; reflexivity).
    split; [eapply Permutation_in; [apply Permutation_sym; exact P|exact Ia]|].
    split; [eapply Permutation_in; [apply Permutation_sym; exact P|exact Iz]|].
    intros p Hp. apply (Permutation_in _ P) in Hp. split.
    + destruct pts as [|a' l]; [discriminate|]. injection H0 as ->. destruct Hp as [->|Hp]; [left; reflexivity|].
      apply StronglySorted_inv in Hs as (_ & Hs). rewrite Forall_forall in Hs. auto.
    + destruct (exists_last Hne) as (l & z' & E1). rewrite E1, rev_app_distr in Hz. cbn in Hz. injection Hz as ->.
      clear - Hs E1 Hp. rewrite E1 in Hs, Hp. clear E1 pts. induction l as [|b l IH].
      * destruct Hp as [->|[]]; left; reflexivity.
      * cbn [app] in *. apply StronglySorted_inv in Hs as (Hs & Hf). destruct Hp as [->|Hp]; [|auto].
        rewrite Forall_forall in Hf. apply Hf. apply in_or_app; right; left; reflexivity.
Qed.

Lemma in_hull_ok h qx qy eps : length (h_x h) = length (h_y h) ->
  h_validated h = true -> h_closed h = true -> h_x h <> [] -> h_orient h = 1 ->
  exists b, in_convex_hull eps qx qy h = Ok b /\
   (b = true <-> forall u v, edge (vertices h) u v -> 0 <= area2 u v (qx, qy)).
Proof.
  intros Hl Hv Hc Hne Ho. eexists. split; [apply in_hull_eq; assumption|]. apply sides_edges; assumption.
Qed.

(* ---- polygons given by the user ---- *)
Definition mirror (p : pt) : pt := (- fst p, snd p).
Lemma mirror_mirror p : mirror (mirror p) = p.
Proof. destruct p. unfold mirror. cbn [fst snd]. f_equal. lia. Qed.
Lemma area2_mirror a b c : area2 (mirror a) (mirror b) (mirror c) = - area2 a b c.
Proof. unfold area2, mirror. cbn [fst snd]. ring. Qed.
Lemma map_mirror l : map mirror (map mirror l) = l.
Proof. rewrite map_map. erewrite map_ext; [apply map_id|]. apply mirror_mirror. Qed.
Lemma edge_map f l a b : edge l a b -> edge (map f l) (f a) (f b).
Proof. intros (l1 & l2 & ->). exists (map f l1), (map f l2). rewrite map_app. reflexivity. Qed.
Lemma corner_map f l a b c : corner l a b c -> corner (map f l) (f a) (f b) (f c).
Proof. intros (l1 & l2 & ->). exists (map f l1), (map f l2). rewrite map_app. reflexivity. Qed.
Lemma edge_unmirror l a b : edge (map mirror l) a b -> edge l (mirror a) (mirror b).
Proof. intros H. apply (edge_map mirror) in H. rewrite map_mirror in H. exact H. Qed.
Lemma around_map l : around (map mirror l) = map mirror (around l).
Proof. unfold around. rewrite map_app. destruct l as [|? [|? ?]]; reflexivity. Qed.
Lemma in_hull_mirror l q : in_hull_of (map mirror l) (mirror q) -> in_hull_of l q.
Proof.
  intros H a b c Hall. specialize (H (- a) b c). unfold mirror at 2 3 in H. cbn [fst snd] in H.
  replace (- a * - fst q) with (a * fst q) in H by ring. apply H.
  intros p Hp. apply in_map_iff in Hp as (p' & <- & Hp'). unfold mirror. cbn [fst snd].
  specialize (Hall p' Hp'). lia.
Qed.

Lemma convex_iff V q (sg : Z) : (2 <= length V)%nat -> hd_error (rev V) = hd_error V -> sg = 1 \/ sg = -1 ->
  (forall a b c, corner (around V) a b c -> 0 < sg * area2 a b c) ->
  (forall a b p, edge V a b -> In p V -> 0 <= sg * area2 a b p) ->
  ((forall a b, edge V a b -> 0 <= sg * area2 a b q) <-> in_hull_of V q).
Proof.
  intros Hlen Hcl Hsg Hc Hl. split.
  - intros He. destruct Hsg as [->| ->].
    + apply convex_inside; [exact Hlen|exact Hcl| |].
      * intros a b c H. specialize (Hc a b c H). lia.
      * intros a b H. specialize (He a b H). lia.
    + apply in_hull_mirror. apply convex_inside.
      * rewrite map_length. exact Hlen.
      * rewrite <- map_rev. destruct (rev V), V; cbn in *; congruence.
      * intros a b c H. rewrite around_map in H. apply (corner_map mirror) in H. rewrite map_mirror in H.
        apply Hc in H. rewrite area2_mirror in H. lia.
      * intros a b H. apply edge_unmirror in H. apply He in H.
        pose proof (area2_mirror (mirror a) (mirror b) q) as E. rewrite !mirror_mirror in E. lia.
  - intros H a b He.
    specialize (H (sg * (snd b - snd a)) (- sg * (fst b - fst a)) (sg * ((snd b - snd a) * fst a - (fst b - fst a) * snd a))).
    cut (sg * (snd b - snd a) * fst q + - sg * (fst b - fst a) * snd q <= sg * ((snd b - snd a) * fst a - (fst b - fst a) * snd a)).
    { unfold area2. nia. }
    apply H. intros p Hp. specialize (Hl a b p He Hp). unfold area2 in Hl. nia.
Qed.

Lemma sides_edges_sg h qx qy sg : length (h_x h) = length (h_y h) -> h_orient h = sg ->
  (forallb (side h qx qy) (seq 0 (length (h_x h) - 1)) = true <-> forall a b, edge (vertices h) a b -> 0 <= sg * area2 a b (qx, qy)).
Proof.
  intros Hlen Ho. rewrite forallb_forall. split.
  - intros H a b He. apply edge_nth in He as (i & H1 & H2).
    assert (Hi : (i + 1 < length (h_x h))%nat).
    { assert (L : (i + 1 < length (vertices h))%nat) by (apply nth_error_Some; congruence).
      unfold vertices, pt in L. rewrite combine_length in L. lia. }
    rewrite pnt_vertex in H1, H2 by lia. injection H1 as <-. injection H2 as <-.
    specialize (H i). rewrite in_seq in H. specialize (H ltac:(lia)). unfold side in H. rewrite Ho in H. lia.
  - intros H i Hi. apply in_seq in Hi. unfold side. rewrite Ho.
    assert (0 <= sg * area2 (pnt (h_x h) (h_y h) i) (pnt (h_x h) (h_y h) (i + 1)) (qx, qy)); [|lia].
    apply H. apply edge_nth. exists i. rewrite !pnt_vertex by lia. auto.
Qed.

Lemma polygon_ok eps x y (sg : Z) qx qy : 0 < eps -> length x = length y -> (3 <= length x)%nat ->
  hd_error (rev (points x y)) = hd_error (points x y) -> sg = 1 \/ sg = -1 ->
  (forall a b c, corner (around (points x y)) a b c -> 0 < sg * area2 a b c) ->
  (forall a b p, edge (points x y) a b -> In p (points x y) -> 0 <= sg * area2 a b p) ->
  exists h b, make_hull eps x y = Ok h /\ in_convex_hull eps qx qy h = Ok b /\
    (b = true <-> in_hull_of (points x y) (qx, qy)).
Proof.
  intros He Hl H3 Hcl Hsg Hc Hle.
  destruct x as [|x0 [|x1 [|x2 x]]]; cbn [length] in H3; try lia.
  destruct y as [|y0 [|y1 [|y2 y]]]; cbn [length] in Hl; try lia.
  set (xs := x0 :: x1 :: x2 :: x) in *. set (ys := y0 :: y1 :: y2 :: y) in *.
  assert (Hls : length xs = length ys) by (unfold xs, ys; cbn [length]; lia).
  assert (Hlast : nth_error xs (length xs - 1) = Some x0 /\ nth_error ys (length xs - 1) = Some y0).
  { assert (E : nth_error (points xs ys) (length xs - 1) = Some (x0, y0)).
    { destruct (exists_last (l := points xs ys)) as (l & z & E); [unfold xs, ys; cbn; congruence|].
      pose proof (f_equal (@length _) E) as EL. rewrite app_length in EL. unfold points, pt in EL. rewrite combine_length in EL. cbn [length] in EL.
      rewrite E in Hcl |- *. rewrite rev_app_distr in Hcl. cbn [rev app hd_error] in Hcl.
      rewrite <- E in Hcl. unfold xs, ys, points in Hcl. cbn [combine hd_error] in Hcl.
      unfold pt in *. rewrite nth_error_app2 by lia. replace (length xs - 1 - length l)%nat with 0%nat by lia. exact Hcl. }
    assert (K1 : exists u, nth_error xs (length xs - 1) = Some u).
    { destruct (nth_error xs (length xs - 1)) eqn:K; [eauto|]. apply nth_error_None in K. unfold xs in K. cbn [length] in K. lia. }
    assert (K2 : exists u, nth_error ys (length xs - 1) = Some u).
    { destruct (nth_error ys (length xs - 1)) eqn:K; [eauto|]. apply nth_error_None in K. rewrite <- Hls in K. unfold xs in K. cbn [length] in K. lia. }
    destruct K1 as (u & K1), K2 as (v & K2). pose proof (combine_nth_error xs ys (length xs - 1) u v) as K.
    apply proj2 in K. specialize (K (conj K1 K2)). unfold points, pt in E. rewrite K in E. injection E as -> ->. auto. }
  destruct Hlast as (L1 & L2).
  assert (Hor : (if (x1 - x0) * (y2 - y1) - (y1 - y0) * (x2 - x1) >? 0 then 1 else -1) = sg).
  { assert (0 < sg * area2 (x0, y0) (x1, y1) (x2, y2)).
    { apply Hc. unfold points, xs, ys, around. cbn [combine app]. exists []. eexists. reflexivity. }
    replace ((x1 - x0) * (y2 - y1) - (y1 - y0) * (x2 - x1)) with (area2 (x0, y0) (x1, y1) (x2, y2)).
    2:{ unfold area2. cbn [fst snd]. ring. }
    destruct (Z.gtb_spec (area2 (x0, y0) (x1, y1) (x2, y2)) 0); lia. }
  exists (Hull xs ys true true sg), (forallb (side (Hull xs ys true true sg) qx qy) (seq 0 (length xs - 1))).
  split.
  { unfold make_hull, validate. cbn [h_validated h_x h_y]. rewrite Hls, Nat.eqb_refl. cbn [check obind].
    destruct (Nat.leb_spec 3 (length ys)); [|rewrite <- Hls in *; unfold xs in *; cbn [length] in *; lia]. cbn [check obind].
    rewrite <- Hls. unfold oget. rewrite L1, L2. unfold xs at 1 2 3, ys at 1 2 3. cbn [nth_error obind]. rewrite Hor.
    rewrite !Z.sub_diag. cbn [Z.abs]. destruct (Z.ltb_spec 0 eps); [reflexivity|lia]. }
  split.
  { apply in_hull_eq; auto. cbn [h_x]. unfold xs. congruence. }
  rewrite (sides_edges_sg (Hull xs ys true true sg) qx qy sg Hls eq_refl).
  apply (convex_iff (points xs ys) (qx, qy) sg); auto.
  unfold points, pt. rewrite combine_length. rewrite <- Hls. unfold xs. cbn [length]. lia.
Qed.
