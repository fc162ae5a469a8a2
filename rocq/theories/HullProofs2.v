(* Lemmas on convex hulls, part 2: the closed hull of a sorted list of points. *)
From Coq Require Import ZifyBool.
From Verif Require Import Base HullModel HullSpec HullProofs.
Open Scope Z_scope.

Definition neg (a : pt) : pt := (- fst a, - snd a).
Lemma neg_neg a : neg (neg a) = a.
Proof. destruct a. unfold neg. cbn [fst snd]. f_equal; lia. Qed.
Lemma area2_neg a b c : area2 (neg a) (neg b) (neg c) = area2 a b c.
Proof. unfold area2, neg. cbn [fst snd]. ring. Qed.
Lemma lt2_neg a b : lt2 (neg a) (neg b) <-> lt2 b a.
Proof. unfold lt2, posv, sub, neg. cbn [fst snd]. lia. Qed.
Lemma neg_inj a b : neg a = neg b -> a = b.
Proof. intros H. rewrite <- (neg_neg a), H. apply neg_neg. Qed.
Lemma le2_neg a b : le2 (neg a) (neg b) <-> le2 b a.
Proof.
  unfold le2. rewrite lt2_neg. split; intros [H|H]; auto; left; [symmetry; apply neg_inj, H|congruence].
Qed.
Lemma popl_neg p S : popl (neg p) (map neg S) = map neg (popl p S).
Proof.
  induction S as [|b S IH]; [reflexivity|]. destruct S as [|a S]; [reflexivity|].
  cbn [map popl] in *. rewrite area2_neg. destruct (area2 a b p <=? 0); [exact IH|reflexivity].
Qed.
Lemma chain_neg pts S : chain (map neg S) (map neg pts) = map neg (chain S pts).
Proof.
  revert S. induction pts as [|p pts IH]; intros S; [reflexivity|]. unfold chain. cbn [map fold_left].
  rewrite popl_neg. apply (IH (p :: popl p S)).
Qed.

Lemma popl_nonempty p S : S <> [] -> popl p S <> [].
Proof. intros H. destruct (popl_spec p S H) as (pre & t & rest & _ & -> & _). discriminate. Qed.
Lemma chain_snoc S pts p : chain S (pts ++ [p]) = p :: popl p (chain S pts).
Proof. unfold chain. rewrite fold_left_app. reflexivity. Qed.
(* the top is the last point, the bottom is the first *)
Lemma popl_bottom p S b : popl p (S ++ [b]) = [] \/ exists S', popl p (S ++ [b]) = S' ++ [b].
Proof.
  destruct (popl_spec p (S ++ [b])) as (pre & t & rest & E & -> & _).
  { destruct S; discriminate. }
  right. destruct (exists_last (l := t :: rest)) as (l & z & E'); [discriminate|].
  rewrite E'. exists l. rewrite E', app_assoc in E. apply app_inj_tail in E as (_ & ->). reflexivity.
Qed.
Lemma chain_bottom p pts : exists S, chain [] (p :: pts) = S ++ [p].
Proof.
  induction pts as [|q pts IH] using rev_ind; [exists []; reflexivity|].
  destruct IH as (S & IH). rewrite app_comm_cons, chain_snoc, IH.
  destruct (popl_bottom q S p) as [E|(S' & ->)].
  - exfalso. revert E. apply popl_nonempty. destruct S; discriminate.
  - exists (q :: S'). reflexivity.
Qed.
(* with two points or more there is an edge *)
Lemma chain_two p q pts : exists a b S, chain [] (p :: pts ++ [q]) = a :: b :: S.
Proof.
  rewrite app_comm_cons, chain_snoc. destruct (chain_bottom p pts) as (S & E).
  destruct (popl q (chain [] (p :: pts))) as [|b S'] eqn:E2; [|eauto].
  exfalso. revert E2. apply popl_nonempty. rewrite E. destruct S; discriminate.
Qed.

Lemma sedge_map_neg S a b : sedge (map neg S) a b -> sedge S (neg a) (neg b).
Proof.
  intros (S1 & S2 & E). apply (f_equal (map neg)) in E. rewrite map_map in E.
  rewrite (map_ext _ (fun x => x) neg_neg), map_id, map_app in E. cbn [map] in E.
  exists (map neg S1), (map neg S2). exact E.
Qed.
Lemma sedge_neg S a b : sedge S a b -> sedge (map neg S) (neg a) (neg b).
Proof.
  intros (S1 & S2 & ->). rewrite map_app. cbn [map]. exists (map neg S1), (map neg S2). reflexivity.
Qed.
Lemma scorner_neg S a b c : scorner S a b c -> scorner (map neg S) (neg a) (neg b) (neg c).
Proof.
  intros (S1 & S2 & ->). rewrite map_app. cbn [map]. exists (map neg S1), (map neg S2). reflexivity.
Qed.
Lemma sorted_rev_neg pts : StronglySorted le2 pts -> StronglySorted le2 (map neg (rev pts)).
Proof.
  induction pts as [|p pts IH]; intros Hs; [constructor|]. inversion Hs as [|? ? H1 H2]; subst.
  cbn [rev]. rewrite map_app. specialize (IH H1). cbn [map].
  assert (Hp : forall q, In q (map neg (rev pts)) -> le2 q (neg p)).
  { intros q Hq. apply in_map_iff in Hq as (r & <- & Hr). apply in_rev in Hr.
    rewrite Forall_forall in H2. rewrite le2_neg. auto. }
  revert IH Hp. generalize (map neg (rev pts)) as l. clear. induction l as [|a l IHl]; intros Hs Hp.
  - constructor; constructor.
  - inversion Hs as [|? ? H1 H2]; subst. cbn [app]. constructor.
    + apply IHl; [exact H1|]. intros q Hq. apply Hp; right; exact Hq.
    + rewrite Forall_forall in *. intros q Hq. apply in_app_or in Hq as [Hq|[<-|[]]]; [auto|].
      apply Hp; left; reflexivity.
Qed.

(* the upper chain: going down *)
Record uinv (pts S : list pt) : Prop := {
  ui_down : forall a b, sedge S a b -> lt2 b a;
  ui_turn : forall a b c, scorner S a b c -> 0 < area2 a b c;
  ui_left : forall a b q, sedge S a b -> In q pts -> 0 <= area2 a b q;
  ui_incl : incl S pts }.
Lemma upper_inv pts : pts <> [] -> StronglySorted le2 pts ->
  uinv pts (chain [] (rev pts)) \/ ainv pts (chain [] (rev pts)).
Proof.
  intros Hne Hs. pose proof (chain_neg (rev pts) []) as E. cbn [map] in E.
  destruct (chain_inv (map neg (rev pts))) as [I|I].
  - intros H. apply map_eq_nil in H. apply Hne. apply (f_equal (@rev pt)) in H. rewrite rev_involutive in H. exact H.
  - apply sorted_rev_neg; exact Hs.
  - left. rewrite E in I.
    assert (Hin : forall q, In q pts -> In (neg q) (map neg (rev pts))).
    { intros q Hq. apply in_map. apply in_rev in Hq. exact Hq. }
    split.
    + intros a b H. apply lt2_neg. apply (si_up _ _ I). apply sedge_neg. exact H.
    + intros a b c H. rewrite <- area2_neg. apply (si_turn _ _ I). apply scorner_neg. exact H.
    + intros a b q H Hq. rewrite <- area2_neg. apply (si_left _ _ I); [apply sedge_neg; exact H|auto].
    + intros a Ha. apply (in_map neg) in Ha. apply (si_incl _ _ I) in Ha.
      apply in_map_iff in Ha as (r & Er & Hr). apply neg_inj in Er. subst r. apply in_rev. exact Hr.
  - right. rewrite E in I. destruct I as (p & E' & H1 & H2). exists (neg p).
    apply (f_equal (map neg)) in E'. rewrite map_map, (map_ext _ (fun x => x) neg_neg), map_id in E'.
    split; [exact E'|]. split.
    + intros q Hq. apply neg_inj. rewrite neg_neg. apply H1. apply in_map. apply in_rev in Hq. exact Hq.
    + apply in_map_iff in H2 as (r & <- & Hr). rewrite neg_neg. apply in_rev. exact Hr.
Qed.

(* ---- the closed hull ---- *)
Definition vhull (pts : list pt) : list pt := rev (tl (chain [] pts)) ++ rev (chain [] (rev pts)).

Lemma edge_rev S a b : edge (rev S) a b <-> sedge S a b.
Proof.
  split.
  - intros (l1 & l2 & E). apply (f_equal (@rev pt)) in E. rewrite rev_involutive, rev_app_distr in E. cbn [rev] in E.
    rewrite <- !app_assoc in E. exists (rev l2), (rev l1). exact E.
  - intros (S1 & S2 & ->). rewrite rev_app_distr. cbn [rev]. rewrite <- !app_assoc. cbn [app]. exists (rev S2), (rev S1). reflexivity.
Qed.
Lemma corner_rev S a b c : corner (rev S) a b c <-> scorner S a b c.
Proof.
  split.
  - intros (l1 & l2 & E). apply (f_equal (@rev pt)) in E. rewrite rev_involutive, rev_app_distr in E. cbn [rev] in E.
    rewrite <- !app_assoc in E. exists (rev l2), (rev l1). exact E.
  - intros (S1 & S2 & ->). rewrite rev_app_distr. cbn [rev]. rewrite <- !app_assoc. cbn [app]. exists (rev S2), (rev S1). reflexivity.
Qed.

(* edges of a concatenation that shares a vertex *)
Lemma app_eq_split {A} : forall (x1 x2 y1 y2 : list A), x1 ++ x2 = y1 ++ y2 ->
  exists l, (x1 = y1 ++ l /\ y2 = l ++ x2) \/ (y1 = x1 ++ l /\ x2 = l ++ y2).
Proof.
  induction x1 as [|a x1 IH]; intros x2 y1 y2 E.
  - exists y1. right. auto.
  - destruct y1 as [|b y1].
    + exists (a :: x1). left. auto.
    + cbn [app] in E. injection E as -> E. destruct (IH _ _ _ E) as (l & [(-> & ->)|(-> & ->)]); exists l; auto.
Qed.
Lemma edge_join l1 z l2 a b : edge (l1 ++ z :: l2) a b <-> edge (l1 ++ [z]) a b \/ edge (z :: l2) a b.
Proof.
  split.
  - intros (m1 & m2 & E). destruct (app_eq_split l1 (z :: l2) m1 (a :: b :: m2)) as (l & [(-> & E2)|(-> & E2)]).
    { exact E. }
    + destruct l as [|a' l]; [right; exists [], m2; exact (eq_sym E2)|]. injection E2 as <- E2.
      destruct l as [|b' l].
      * cbn [app] in E2. injection E2 as <- ->. left. exists m1, []. rewrite <- app_assoc. reflexivity.
      * injection E2 as <- ->. left. exists m1, (l ++ [z]). rewrite <- app_assoc. reflexivity.
    + right. exists l, m2. exact E2.
  - intros [(m1 & m2 & E)|(m1 & m2 & E)].
    + exists m1, (m2 ++ l2). change (l1 ++ z :: l2) with (l1 ++ [z] ++ l2). rewrite app_assoc, E, <- app_assoc. reflexivity.
    + exists (l1 ++ m1), m2. rewrite E, app_assoc. reflexivity.
Qed.
Lemma edge_In l a b : edge l a b -> In a l /\ In b l.
Proof.
  intros (l1 & l2 & ->). split; apply in_or_app; right; [left|right; left]; reflexivity.
Qed.

Lemma chain_top_last pts p : exists S, chain [] (pts ++ [p]) = p :: S.
Proof. rewrite chain_snoc. eauto. Qed.

(* the two halves of the hull, for at least one point: from p0 up to z, from z down to p0 *)
Lemma vhull_halves pts p0 z : hd_error pts = Some p0 -> hd_error (rev pts) = Some z ->
  exists L U, chain [] pts = z :: L /\ chain [] (rev pts) = U ++ [z] /\
    vhull pts = rev L ++ z :: rev U /\
    (exists L', z :: L = L' ++ [p0]) /\ (exists U', U ++ [z] = p0 :: U').
Proof.
  intros H0 Hz.
  assert (E1 : exists q, pts = q ++ [z]).
  { destruct (rev pts) as [|a r] eqn:E; [discriminate|]. cbn in Hz. injection Hz as ->.
    exists (rev r). rewrite <- (rev_involutive pts), E. reflexivity. }
  assert (E2 : exists q, rev pts = q ++ [p0]).
  { destruct pts as [|a r] eqn:E; [discriminate|]. cbn in H0. injection H0 as ->. exists (rev r). reflexivity. }
  destruct E1 as (q1 & E1), E2 as (q2 & E2).
  destruct (chain_top_last q1 z) as (L & EL). rewrite <- E1 in EL.
  destruct (chain_top_last q2 p0) as (U1 & EU). rewrite <- E2 in EU.
  assert (Hb : exists L', chain [] pts = L' ++ [p0]).
  { destruct pts as [|a r]; [discriminate|]. cbn in H0. injection H0 as ->. apply chain_bottom. }
  assert (Hb' : exists U', chain [] (rev pts) = U' ++ [z]).
  { destruct (rev pts) as [|a r]; [discriminate|]. cbn in Hz. injection Hz as ->. apply chain_bottom. }
  destruct Hb as (L' & Hb), Hb' as (U & HU).
  exists L, U. split; [exact EL|]. split; [exact HU|]. split.
  - unfold vhull. rewrite EL, HU. cbn [tl]. rewrite rev_app_distr. reflexivity.
  - split; [exists L'; congruence|exists U1; congruence].
Qed.

Lemma hd_rev_exists (pts : list pt) : pts <> [] -> exists p0 z, hd_error pts = Some p0 /\ hd_error (rev pts) = Some z.
Proof.
  intros H. destruct pts as [|p0 r] eqn:E; [congruence|].
  destruct (rev (p0 :: r)) as [|z r'] eqn:E'.
  - apply (f_equal (@length pt)) in E'. rewrite rev_length in E'. discriminate.
  - exists p0, z. split; reflexivity.
Qed.

Section H.
Variable pts : list pt.
Hypotheses (Hne : pts <> []) (Hs : StronglySorted le2 pts).

Lemma vhull_left a b q : edge (vhull pts) a b -> In q pts -> 0 <= area2 a b q.
Proof.
  intros He Hq. destruct (hd_rev_exists pts Hne) as (p0 & z & H0 & Hz).
  destruct (vhull_halves pts p0 z H0 Hz) as (L & U & EL & EU & EV & _ & _).
  rewrite EV in He. rewrite edge_join in He. destruct He as [He|He].
  - change (rev L ++ [z]) with (rev (z :: L)) in He. rewrite edge_rev, <- EL in He.
    destruct (chain_inv pts Hne Hs) as [I|(p & E & H1 & H2)].
    + apply (si_left _ _ I); assumption.
    + rewrite E in He. destruct He as (S1 & S2 & E'). destruct S1 as [|? [|? [|]]]; try discriminate.
      injection E' as <- <- <-. rewrite area2_same1. lia.
  - assert (He' : edge (rev (U ++ [z])) a b) by (rewrite rev_app_distr; exact He).
    rewrite edge_rev, <- EU in He'.
    destruct (upper_inv pts Hne Hs) as [I|(p & E & H1 & H2)].
    + apply (ui_left _ _ I); assumption.
    + rewrite E in He'. destruct He' as (S1 & S2 & E'). destruct S1 as [|? [|? [|]]]; try discriminate.
      injection E' as <- <- <-. rewrite area2_same1. lia.
Qed.

Lemma vhull_incl : incl (vhull pts) pts.
Proof.
  assert (H1 : incl (chain [] pts) pts).
  { destruct (chain_inv pts Hne Hs) as [I|(p & E & H1 & H2)]; [apply (si_incl _ _ I)|].
    rewrite E. intros q [<-|[<-|[]]]; exact H2. }
  assert (H2 : incl (chain [] (rev pts)) pts).
  { destruct (upper_inv pts Hne Hs) as [I|(p & E & H3 & H4)]; [apply (ui_incl _ _ I)|].
    rewrite E. intros q [<-|[<-|[]]]; exact H4. }
  unfold vhull. intros q Hq. apply in_app_or in Hq as [Hq|Hq]; apply in_rev in Hq; [|auto].
  apply H1. destruct (chain [] pts); [destruct Hq|right; exact Hq].
Qed.

Lemma vhull_closed : exists p0, hd_error (vhull pts) = Some p0 /\ hd_error (rev (vhull pts)) = Some p0.
Proof.
  destruct (hd_rev_exists pts Hne) as (p0 & z & H0 & Hz).
  destruct (vhull_halves pts p0 z H0 Hz) as (L & U & EL & EU & EV & (L' & E1) & (U' & E2)).
  exists p0. rewrite EV. split.
  - change (rev L ++ z :: rev U) with (rev L ++ [z] ++ rev U). rewrite app_assoc.
    change (rev L ++ [z]) with (rev (z :: L)). rewrite E1, rev_app_distr. reflexivity.
  - rewrite rev_app_distr. cbn [rev]. rewrite rev_involutive, E2. reflexivity.
Qed.
End H.
