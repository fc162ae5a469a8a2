(* C42: convex hulls.  Every theorem holds for every implementation of std::sort. *)
From Coq Require Import ZifyBool.
From Verif Require Import Base IndexModel VecModel HullModel HullSpec HullProofs HullProofs2 HullProofs3 HullProofs4 HullProofs5.
Open Scope Z_scope.

(* The hull is a closed chain of input points, and every input point is on the left of
   (or on) every edge. *)
Theorem C42_build s x y : length x = length y -> x <> [] -> sorts (less x y) s ->
  exists h, build_convex_hull s x y = Ok h /\ length (h_x h) = length (h_y h) /\ h_x h <> [] /\
    hd_error (vertices h) = hd_error (rev (vertices h)) /\
    incl (vertices h) (points x y) /\
    (forall a b q, edge (vertices h) a b -> In q (points x y) -> 0 <= area2 a b q).
Proof.
  intros Hl Hx Hs. destruct (build_facts s x y Hl Hx Hs) as (h & E & _ & _ & _ & H1 & H2 & H3 & H4 & H5 & _).
  exists h. auto 10.
Qed.
Print Assumptions C42_build.

(* Unless all points are aligned, the chain turns strictly left at every vertex (also at the
   vertex where it closes) and no vertex appears twice: the hull is minimal. *)
Theorem C42_strict s x y h : sorts (less x y) s -> build_convex_hull s x y = Ok h ->
  ~ collinear (points x y) ->
  (forall a b c, corner (around (vertices h)) a b c -> 0 < area2 a b c) /\ NoDup (tl (vertices h)).
Proof.
  intros Hs E Hn.
  assert (Hl : length x = length y).
  { unfold build_convex_hull in E. destruct (Nat.eqb_spec (length x) (length y)); [assumption|discriminate]. }
  assert (Hx : x <> []). { intros ->. apply Hn. intros a b c []. }
  destruct (build_facts s x y Hl Hx Hs) as (h' & E' & _ & _ & _ & _ & _ & _ & _ & _ & H6 & _).
  rewrite E in E'. injection E' as <-. destruct (H6 Hn) as (H7 & H8 & _). auto.
Qed.
Print Assumptions C42_strict.

(* in_convex_hull accepts every point the hull was built from. *)
Theorem C42_accepts_points s x y h eps qx qy : sorts (less x y) s -> build_convex_hull s x y = Ok h ->
  In (qx, qy) (points x y) -> in_convex_hull eps qx qy h = Ok true.
Proof.
  intros Hs E Hq.
  assert (Hl : length x = length y).
  { unfold build_convex_hull in E. destruct (Nat.eqb_spec (length x) (length y)); [assumption|discriminate]. }
  assert (Hx : x <> []). { intros ->. destruct Hq. }
  destruct (build_facts s x y Hl Hx Hs) as (h' & E' & H1 & H2 & H3 & H4 & H5 & _ & _ & H6 & _).
  rewrite E in E'. injection E' as <-. destruct (in_hull_ok h qx qy eps) as (b & -> & Hb); auto.
  f_equal. apply Hb. intros u v He. apply H6; assumption.
Qed.
Print Assumptions C42_accepts_points.

(* Unless all points are aligned, in_convex_hull decides membership in the convex hull: it
   accepts exactly the points of all half-planes that contain all input points. *)
Theorem C42_membership s x y h eps qx qy : sorts (less x y) s -> build_convex_hull s x y = Ok h ->
  ~ collinear (points x y) ->
  exists b, in_convex_hull eps qx qy h = Ok b /\ (b = true <-> in_hull_of (points x y) (qx, qy)).
Proof.
  intros Hs E Hn.
  assert (Hl : length x = length y).
  { unfold build_convex_hull in E. destruct (Nat.eqb_spec (length x) (length y)); [assumption|discriminate]. }
  assert (Hx : x <> []). { intros ->. apply Hn. intros a b c []. }
  destruct (build_facts s x y Hl Hx Hs) as (h' & E' & H1 & H2 & H3 & H4 & H5 & _ & _ & _ & H6 & _).
  rewrite E in E'. injection E' as <-. destruct (in_hull_ok h qx qy eps) as (b & Eb & Hb); auto.
  exists b. split; [exact Eb|]. rewrite Hb. destruct (H6 Hn) as (_ & _ & H). apply H.
Qed.
Print Assumptions C42_membership.

(* The version for vectors gives the answer of the scalar version for each point. *)
Theorem C42_vector s x y h eps px py : sorts (less x y) s -> x <> [] -> build_convex_hull s x y = Ok h ->
  length px = length py ->
  exists res, in_convex_hull_vec eps px py h = Ok res /\ length res = length px /\
    forall p qx qy, nth_error px p = Some qx -> nth_error py p = Some qy ->
      exists b, nth_error res p = Some b /\ in_convex_hull eps qx qy h = Ok b.
Proof.
  intros Hs Hx E Hp.
  assert (Hl : length x = length y).
  { unfold build_convex_hull in E. destruct (Nat.eqb_spec (length x) (length y)); [assumption|discriminate]. }
  destruct (build_facts s x y Hl Hx Hs) as (h' & E' & H1 & H2 & H3 & H4 & H5 & _).
  rewrite E in E'. injection E' as <-. apply in_hull_vec_eq; assumption.
Qed.
Print Assumptions C42_vector.

(* Vectors of different lengths and hulls that are not closed are refused. *)
Theorem C42_dims s x y eps px py h :
  (length x <> length y -> build_convex_hull s x y = CheckFail) /\
  (length x <> length y -> make_hull eps x y = CheckFail) /\
  ((length x < 3)%nat -> make_hull eps x y = CheckFail) /\
  (h_validated h = true -> h_closed h = false -> in_convex_hull eps px py h = CheckFail) /\
  (forall px py, h_validated h = true -> length px <> length py -> in_convex_hull_vec eps px py h = CheckFail).
Proof.
  unfold build_convex_hull, make_hull, validate, in_convex_hull, in_convex_hull_vec, validate. cbn [h_validated h_x h_y].
  split; [|split; [|split; [|split]]].
  - intros H. destruct (Nat.eqb_spec (length x) (length y)); [contradiction|reflexivity].
  - intros H. destruct (Nat.eqb_spec (length x) (length y)); [contradiction|reflexivity].
  - intros H. destruct (Nat.eqb_spec (length x) (length y)); [|reflexivity]. cbn [check obind].
    destruct (Nat.leb_spec 3 (length x)); [lia|reflexivity].
  - intros -> Hc. cbn [obind]. rewrite Hc. reflexivity.
  - intros qx qy Hv Hn. rewrite Hv. cbn [obind]. destruct (h_closed h); [|reflexivity]. cbn [check obind].
    destruct (Nat.eqb_spec (length qx) (length qy)); [contradiction|reflexivity].
Qed.
Print Assumptions C42_dims.

(* A strictly convex closed polygon given by the user, of either orientation, is a valid hull:
   the orientation is recognised and in_convex_hull decides membership. *)
Theorem C42_polygon eps x y (sg : Z) qx qy : 0 < eps -> length x = length y -> (3 <= length x)%nat ->
  hd_error (rev (points x y)) = hd_error (points x y) -> sg = 1 \/ sg = -1 ->
  (forall a b c, corner (around (points x y)) a b c -> 0 < sg * area2 a b c) ->
  (forall a b p, edge (points x y) a b -> In p (points x y) -> 0 <= sg * area2 a b p) ->
  exists h b, make_hull eps x y = Ok h /\ in_convex_hull eps qx qy h = Ok b /\
    (b = true <-> in_hull_of (points x y) (qx, qy)).
Proof. exact (polygon_ok eps x y sg qx qy). Qed.
Print Assumptions C42_polygon.

(* ---- findings ---- *)
(* Without points the loop of the upper chain starts at index 2^64-2. *)
Theorem C42_empty_UB s : build_convex_hull s [] [] = UB.
Proof. reflexivity. Qed.
Print Assumptions C42_empty_UB.

(* Aligned points: the hull is a segment there and back, and in_convex_hull accepts the whole
   line through it. *)
Theorem C42_collinear_line s x y h eps qx qy : sorts (less x y) s -> build_convex_hull s x y = Ok h ->
  (2 <= length x)%nat -> collinear (points x y) ->
  exists a b r, In a (points x y) /\ In b (points x y) /\ vertices h = [a; b; a] /\
    in_convex_hull eps qx qy h = Ok r /\ (r = true <-> area2 a b (qx, qy) = 0).
Proof.
  intros Hs E H2 Hcol.
  assert (Hl : length x = length y).
  { unfold build_convex_hull in E. destruct (Nat.eqb_spec (length x) (length y)); [assumption|discriminate]. }
  assert (Hx : x <> []). { intros ->. cbn in H2. lia. }
  destruct (build_facts s x y Hl Hx Hs) as (h' & E' & H3 & H4 & H5 & H6 & H7 & _ & _ & _ & _ & H8).
  rewrite E in E'. injection E' as <-. destruct (H8 Hcol H2) as (a & b & EV & Ia & Ib & _).
  destruct (in_hull_ok h qx qy eps) as (r & Er & Hr); auto.
  exists a, b, r. do 4 (split; [assumption|]). rewrite Hr, EV. split.
  - intros H. assert (0 <= area2 a b (qx, qy)) by (apply H; exists [], [a]; reflexivity).
    assert (0 <= area2 b a (qx, qy)) by (apply H; exists [a], []; reflexivity).
    unfold area2 in *. lia.
  - intros H0 u v (l1 & l2 & EE). destruct l1 as [|? [|? [|]]]; cbn in EE; try discriminate.
    + injection EE as <- <- _. lia.
    + injection EE as _ <- <- _. unfold area2 in *. lia.
    + injection EE as _ _ _ EE. destruct l; discriminate.
Qed.
Print Assumptions C42_collinear_line.

(* an implementation of std::sort, for the examples *)
Fixpoint ins (lt : nat -> nat -> bool) (i : nat) (l : list nat) : list nat :=
  match l with [] => [i] | j :: l' => if lt j i then j :: ins lt i l' else i :: l end.
Definition isort lt (l : list nat) : list nat := fold_right (ins lt) [] l.
Lemma ins_perm lt i l : Permutation (i :: l) (ins lt i l).
Proof.
  induction l as [|j l IH]; cbn [ins]; [reflexivity|]. destruct (lt j i); [|reflexivity].
  rewrite <- IH. constructor.
Qed.
Lemma less_trans x y i j k : less x y j i = false -> less x y k j = false -> less x y k i = false.
Proof. unfold less. intros. repeat match goal with H : context [if ?b then _ else _] |- _ => destruct b eqn:? | |- context [if ?b then _ else _] => destruct b eqn:? end; lia. Qed.
Lemma less_asym x y i j : less x y i j = true -> less x y j i = false.
Proof. unfold less. intros. repeat match goal with H : context [if ?b then _ else _] |- _ => destruct b eqn:? | |- context [if ?b then _ else _] => destruct b eqn:? end; lia. Qed.
Lemma isort_sorts x y : sorts (less x y) (isort (less x y)).
Proof.
  intros l. induction l as [|i l (P & S)]; [split; constructor|]. cbn [isort fold_right]. fold (isort (less x y) l). split.
  - rewrite <- ins_perm. constructor. exact P.
  - clear P. induction (isort (less x y) l) as [|j m IH]; cbn [ins]; [repeat constructor|].
    apply StronglySorted_inv in S as (S & F). destruct (less x y j i) eqn:E.
    + constructor; [apply IH; exact S|]. apply Forall_forall. intros k Hk.
      apply (Permutation_in _ (Permutation_sym (ins_perm _ i m))) in Hk as [<-|Hk].
      * apply less_asym. exact E.
      * rewrite Forall_forall in F. auto.
    + constructor; [constructor; assumption|]. constructor; [exact E|]. eapply Forall_impl; [|exact F].
      cbn. intros k Hk. eapply less_trans; eauto.
Qed.

Theorem C42_single_refuted : exists x y h qx qy, build_convex_hull (isort (less x y)) x y = Ok h /\
  in_convex_hull 1 qx qy h = Ok true /\ ~ in_hull_of (points x y) (qx, qy).
Proof.
  exists [3], [4], (Hull [3] [4] true true 1), 100, 7. split; [reflexivity|]. split; [reflexivity|].
  intros H. specialize (H 1 0 3). cbn in H. assert (1 * 100 + 0 * 7 <= 3); [|lia].
  apply H. intros p [<-|[]]. cbn. lia.
Qed.
Print Assumptions C42_single_refuted.

Theorem C42_collinear_refuted : exists x y h qx qy, build_convex_hull (isort (less x y)) x y = Ok h /\
  in_convex_hull 1 qx qy h = Ok true /\ ~ in_hull_of (points x y) (qx, qy).
Proof.
  exists [0; 1; 2], [0; 1; 2], (Hull [0; 2; 0] [0; 2; 0] true true 1), 5, 5. split; [reflexivity|]. split; [reflexivity|].
  intros H. specialize (H 1 0 2). cbn in H. assert (1 * 5 + 0 * 5 <= 2); [|lia].
  apply H. intros p [<-|[<-|[<-|[]]]]; cbn; lia.
Qed.
Print Assumptions C42_collinear_refuted.

(* A convex polygon whose first three vertices are aligned: the orientation is taken to be
   clockwise, and interior points are rejected. *)
Theorem C42_aligned_start_refuted : exists x y h qx qy, make_hull 1 x y = Ok h /\
  (forall a b p, edge (points x y) a b -> In p (points x y) -> 0 <= area2 a b p) /\
  in_hull_of (points x y) (qx, qy) /\ in_convex_hull 1 qx qy h = Ok false.
Proof.
  exists [0; 1; 2; 2; 0; 0], [0; 0; 0; 2; 2; 0], (Hull [0; 1; 2; 2; 0; 0] [0; 0; 0; 2; 2; 0] true true (-1)), 1, 1.
  split; [reflexivity|]. split.
  { intros a b p (l1 & l2 & E) Hp.
    unfold points in E. cbn [combine] in E.
    assert (Hin : In p [(0, 0); (1, 0); (2, 0); (2, 2); (0, 2); (0, 0)]) by exact Hp. clear Hp.
    assert (Hedges : forall a b, In (a, b) [((0, 0), (1, 0)); ((1, 0), (2, 0)); ((2, 0), (2, 2)); ((2, 2), (0, 2)); ((0, 2), (0, 0))] -> 0 <= area2 a b p).
    { intros u v Huv. cbn [In] in Hin, Huv. intuition (subst; repeat match goal with H : (_, _) = (_, _) |- _ => injection H as ? ?; subst end; unfold area2; cbn; lia). }
    apply Hedges.
    do 5 (destruct l1 as [|? l1]; [cbn [app] in E; injection E; intros; subst; cbn [In]; tauto|
      cbn [app] in E; injection E; clear E; intros E; intros; subst]).
    exfalso. destruct l1 as [|? [|]]; discriminate. }
  split; [|reflexivity].
  intros a b c H. pose proof (H (0, 0) ltac:(cbn; tauto)). pose proof (H (2, 2) ltac:(cbn; tauto)). cbn [fst snd] in *. lia.
Qed.
Print Assumptions C42_aligned_start_refuted.

(* For an integer type epsilon is zero: no polygon is ever recognised as closed, so the hull
   functions refuse every polygon of integers given by the user; so they do for the
   constructor without checks. *)
Theorem C42_integer_polygon_refused x y h qx qy : make_hull 0 x y = Ok h -> in_convex_hull 0 qx qy h = CheckFail.
Proof.
  unfold make_hull, validate. cbn [h_validated h_x h_y].
  destruct (length x =? length y)%nat; [|discriminate]. destruct (3 <=? length x)%nat; [|discriminate]. cbn [check obind].
  unfold oget. destruct (nth_error x 0), (nth_error x 1), (nth_error x 2), (nth_error y 0), (nth_error y 1), (nth_error y 2);
    cbn [obind]; try discriminate.
  destruct (nth_error x (length x - 1)), (nth_error y (length x - 1)); cbn [obind]; try discriminate.
  intros [= <-]. unfold in_convex_hull, validate. cbn [h_validated obind h_closed].
  match goal with |- context [Z.abs ?e <? 0] => destruct (Z.ltb_spec (Z.abs e) 0); [lia|] end. reflexivity.
Qed.
Print Assumptions C42_integer_polygon_refused.
Theorem C42_no_check_refused x y eps qx qy : in_convex_hull eps qx qy (Hull x y true false 0) = CheckFail.
Proof. reflexivity. Qed.
Print Assumptions C42_no_check_refused.

(* ---- examples ---- *)
(* a square with an inner point, points on the border and a repeated corner *)
Example C42_example_square :
  build_convex_hull (isort (less [2; 0; 1; 2; 0; 1; 0] [2; 2; 1; 0; 0; 0; 0])) [2; 0; 1; 2; 0; 1; 0] [2; 2; 1; 0; 0; 0; 0] =
    Ok (Hull [0; 2; 2; 0; 0] [0; 0; 2; 2; 0] true true 1).
Proof. reflexivity. Qed.
Example C42_example_not_collinear : ~ collinear (points [2; 0; 1; 2; 0; 1; 0] [2; 2; 1; 0; 0; 0; 0]).
Proof. intros H. specialize (H (0, 0) (2, 0) (2, 2)). cbn in H. discriminate H; tauto. Qed.
Example C42_example_inside : in_convex_hull 1 1 2 (Hull [0; 2; 2; 0; 0] [0; 0; 2; 2; 0] true true 1) = Ok true /\
  in_convex_hull 1 1 3 (Hull [0; 2; 2; 0; 0] [0; 0; 2; 2; 0] true true 1) = Ok false /\
  in_convex_hull_vec 1 [1; 1; -1; 2] [2; 3; 0; 2] (Hull [0; 2; 2; 0; 0] [0; 0; 2; 2; 0] true true 1) = Ok [true; false; false; true].
Proof. repeat split. Qed.
(* a clockwise triangle given by the user *)
Example C42_example_clockwise : exists h, make_hull 1 [0; 0; 3; 0] [0; 3; 0; 0] = Ok h /\ h_orient h = -1 /\
  in_convex_hull 1 1 1 h = Ok true /\ in_convex_hull 1 2 2 h = Ok false.
Proof. eexists. repeat split. Qed.
