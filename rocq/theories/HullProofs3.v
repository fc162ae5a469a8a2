(* Lemmas on convex hulls, part 3: strict corners, and the hull is the convex hull. *)
From Coq Require Import ZifyBool.
From Verif Require Import Base HullModel HullSpec HullProofs HullProofs2.
Open Scope Z_scope.

Lemma corner_join l1 z l2 a b c : corner (l1 ++ z :: l2) a b c ->
  corner (l1 ++ [z]) a b c \/ corner (z :: l2) a b c \/ (b = z /\ edge (l1 ++ [z]) a z /\ edge (z :: l2) z c).
Proof.
  intros (m1 & m2 & E). destruct (app_eq_split l1 (z :: l2) m1 (a :: b :: c :: m2)) as (l & [(-> & E2)|(-> & E2)]).
  { exact E. }
  - destruct l as [|a' l]; [right; left; exists [], m2; exact (eq_sym E2)|]. injection E2 as <- E2.
    destruct l as [|b' l].
    + cbn [app] in E2. injection E2 as <- <-. right; right. split; [reflexivity|]. split.
      * exists m1, []. rewrite <- app_assoc. reflexivity.
      * exists [], m2. reflexivity.
    + injection E2 as <- E2. destruct l as [|c' l].
      * cbn [app] in E2. injection E2 as <- <-. left. exists m1, []. rewrite <- app_assoc. reflexivity.
      * injection E2 as <- ->. left. exists m1, (l ++ [z]). rewrite <- app_assoc. reflexivity.
  - right; left. exists l, m2. exact E2.
Qed.

Lemma fold_flat u w Q : (posv u /\ posv (neg w)) \/ (posv (neg u) /\ posv w) ->
  crv u w = 0 -> 0 <= crv u Q -> 0 <= crv w Q -> crv u Q = 0.
Proof.
  unfold posv, neg, crv. destruct u as [ux uy], w as [wx wy], Q as [qx qy]; cbn [fst snd].
  intros Hd H0 H1 H2.
  assert (E : wx * (ux * qy - uy * qx) = ux * (wx * qy - wy * qx)).
  { apply Z.sub_move_0_r. transitivity (qx * (ux * wy - uy * wx)); [ring|]. rewrite H0. ring. }
  destruct Hd as [[[Hu|[Hu Hu']] Hw]|[[Hu|[Hu Hu']] Hw]].
  - assert (wx < 0). { destruct Hw as [Hw|[Hw Hw']]; [lia|]. assert (wx = 0) by lia. subst wx. nia. }
    nia.
  - subst ux. assert (wx = 0) by nia. subst wx. nia.
  - assert (0 < wx). { destruct Hw as [Hw|[Hw Hw']]; [lia|]. subst wx. nia. }
    nia.
  - assert (ux = 0) by lia. subst ux. assert (wx = 0) by nia. subst wx. nia.
Qed.

Lemma flat_all a b (l : list pt) : a <> b -> (forall q, In q l -> area2 a b q = 0) -> collinear l.
Proof.
  intros Hab H p q r Hp Hq Hr. apply H in Hp, Hq, Hr. revert Hab Hp Hq Hr. unfold area2.
  destruct a as [ax ay], b as [bx by_], p as [px py], q as [qx qy], r as [rx ry]. cbn [fst snd]. intros Hab Hp Hq Hr.
  set (u := bx - ax) in *. set (v := by_ - ay) in *.
  assert (Huv : u <> 0 \/ v <> 0).
  { destruct (Z.eq_dec u 0), (Z.eq_dec v 0); auto. exfalso. apply Hab. f_equal; lia. }
  assert (Eq : u * (qy - py) = v * (qx - px)) by lia.
  assert (Er : u * (ry - py) = v * (rx - px)) by lia.
  destruct Huv as [Hu|Hv].
  - assert (u * ((qx - px) * (ry - py) - (qy - py) * (rx - px)) = 0).
    { replace (u * ((qx - px) * (ry - py) - (qy - py) * (rx - px)))
        with ((qx - px) * (u * (ry - py)) - (u * (qy - py)) * (rx - px)) by ring.
      rewrite Eq, Er. ring. }
    nia.
  - assert (v * ((qx - px) * (ry - py) - (qy - py) * (rx - px)) = 0).
    { replace (v * ((qx - px) * (ry - py) - (qy - py) * (rx - px)))
        with ((v * (qx - px)) * (ry - py) - (qy - py) * (v * (rx - px))) by ring.
      rewrite <- Eq, <- Er. ring. }
    nia.
Qed.

Lemma all_equal_collinear (l : list pt) p : (forall q, In q l -> q = p) -> collinear l.
Proof.
  intros H a b c Ha Hb Hc. rewrite (H a Ha), (H b Hb). apply area2_same1.
Qed.

Section H.
Variable pts : list pt.
Hypotheses (Hne : pts <> []) (Hs : StronglySorted le2 pts).

Lemma corner_strict a b c : (lt2 a b /\ lt2 c b) \/ (lt2 b a /\ lt2 b c) -> In c pts ->
  (forall q, In q pts -> 0 <= area2 a b q) -> (forall q, In q pts -> 0 <= area2 b c q) ->
  ~ collinear pts -> 0 < area2 a b c.
Proof.
  intros Hd Hc H1 H2 Hn. pose proof (H1 c Hc). destruct (Z.eq_dec (area2 a b c) 0) as [E|]; [|lia].
  exfalso. apply Hn. apply (flat_all a b).
  - intros ->. destruct Hd as [[Hd _]|[Hd _]]; exact (lt2_irrefl _ Hd).
  - intros q Hq. rewrite area2_shift. apply (fold_flat (sub b a) (sub c b)).
    + unfold lt2, posv, neg, sub in *. cbn [fst snd] in *. lia.
    + rewrite <- area2_shift. exact E.
    + rewrite <- area2_shift. auto.
    + rewrite <- area2_crv. auto.
Qed.

Lemma vhull_shape : ~ collinear pts ->
  exists p0 v1 z A B, vhull pts = p0 :: v1 :: A ++ B ++ [p0] /\
    (exists A', p0 :: v1 :: A = A' ++ [z] /\ forall a b, edge (p0 :: v1 :: A) a b -> lt2 a b) /\
    (forall a b, edge (z :: B ++ [p0]) a b -> lt2 b a) /\
    (forall a b c, corner (p0 :: v1 :: A) a b c -> 0 < area2 a b c) /\
    (forall a b c, corner (z :: B ++ [p0]) a b c -> 0 < area2 a b c).
Proof.
  intros Hn. destruct (hd_rev_exists pts Hne) as (p0 & z & H0 & Hz).
  destruct (vhull_halves pts p0 z H0 Hz) as (L & U & EL & EU & EV & (L' & E1) & (U' & E2)).
  destruct (chain_inv pts Hne Hs) as [I|(p & _ & H1 & _)].
  2:{ exfalso. apply Hn. exact (all_equal_collinear pts p H1). }
  destruct (upper_inv pts Hne Hs) as [J|(p & _ & H1 & _)].
  2:{ exfalso. apply Hn. exact (all_equal_collinear pts p H1). }
  assert (Hz' : p0 <> z).
  { intros ->. apply Hn. apply (all_equal_collinear pts z). intros q Hq. apply le2_antisym.
    - eapply (si_top _ _ I); [exact EL|exact Hq].
    - eapply (si_bot _ _ I); [rewrite EL; exact E1|exact Hq]. }
  (* the lower chain has two vertices at least *)
  destruct L' as [|z' L']; [cbn [app] in E1; injection E1 as -> ->; congruence|].
  cbn [app] in E1. injection E1 as <- EL'.
  destruct U as [|p0' U]; [cbn [app] in E2; injection E2 as -> _; congruence|].
  cbn [app] in E2. injection E2 as -> EU'.
  assert (ER : rev (z :: L) = p0 :: rev (z :: L')).
  { rewrite EL'. cbn [rev]. rewrite rev_app_distr. reflexivity. }
  destruct (rev (z :: L')) as [|v1 A] eqn:EA.
  { apply (f_equal (@length pt)) in EA. rewrite rev_length in EA. discriminate. }
  exists p0, v1, z, A, (rev U).
  assert (EB : rev (chain [] (rev pts)) = z :: rev U ++ [p0]).
  { rewrite EU. cbn [app rev]. rewrite rev_app_distr. reflexivity. }
  split.
  { rewrite EV. change (rev L ++ z :: rev (p0 :: U)) with (rev L ++ [z] ++ rev (p0 :: U)). rewrite app_assoc.
    change (rev L ++ [z]) with (rev (z :: L)). rewrite ER. reflexivity. }
  split; [|split; [|split]].
  - exists (rev L). split; [rewrite <- ER; reflexivity|]. intros a b H. rewrite <- ER, edge_rev, <- EL in H.
    apply (si_up _ _ I). exact H.
  - intros a b H. rewrite <- EB, edge_rev in H. apply (ui_down _ _ J). exact H.
  - intros a b c H. rewrite <- ER, corner_rev, <- EL in H. apply (si_turn _ _ I). exact H.
  - intros a b c H. rewrite <- EB, corner_rev in H. apply (ui_turn _ _ J). exact H.
Qed.

Lemma edge_app_r l m a b : edge l a b -> edge (l ++ m) a b.
Proof. intros (l1 & l2 & ->). exists l1, (l2 ++ m). rewrite <- app_assoc. reflexivity. Qed.

Lemma vhull_corners a b c : ~ collinear pts -> corner (around (vhull pts)) a b c -> 0 < area2 a b c.
Proof.
  intros Hn Hc. destruct (vhull_shape Hn) as (p0 & v1 & z & A & B & EV & (A' & EA & HA) & HB & HcA & HcB).
  pose proof (vhull_left pts Hne Hs) as Hl. pose proof (vhull_incl pts Hne Hs) as Hi.
  assert (EV' : vhull pts = A' ++ z :: B ++ [p0]).
  { rewrite EV. change (p0 :: v1 :: A ++ B ++ [p0]) with ((p0 :: v1 :: A) ++ B ++ [p0]).
    rewrite EA, <- app_assoc. reflexivity. }
  assert (EdA : forall a b, edge (p0 :: v1 :: A) a b -> edge (vhull pts) a b).
  { intros x y H. rewrite EV', edge_join. left. rewrite <- EA. exact H. }
  assert (EdB : forall a b, edge (z :: B ++ [p0]) a b -> edge (vhull pts) a b).
  { intros x y H. rewrite EV', edge_join. right. exact H. }
  assert (E01 : edge (p0 :: v1 :: A) p0 v1) by (exists [], A; reflexivity).
  assert (Earound : around (vhull pts) = (A' ++ z :: B) ++ p0 :: [v1]).
  { unfold around. rewrite EV' at 1. rewrite EV. cbn [skipn firstn]. rewrite <- !app_assoc. cbn [app]. rewrite <- app_assoc. reflexivity. }
  rewrite Earound in Hc. apply corner_join in Hc as [Hc|[Hc|(-> & Ha & Hb)]].
  - rewrite <- app_assoc in Hc. apply corner_join in Hc as [Hc|[Hc|(-> & Ha & Hb)]].
    + apply HcA. rewrite EA. exact Hc.
    + apply HcB. exact Hc.
    + rewrite <- EA in Ha. apply corner_strict.
      * left. split; [apply HA; exact Ha|apply HB; exact Hb].
      * apply Hi. apply EdB in Hb. apply edge_In in Hb. tauto.
      * intros q. apply Hl. auto.
      * intros q. apply Hl. auto.
      * exact Hn.
  - destruct Hc as (l1 & l2 & E). destruct l1 as [|? [|? [|]]]; discriminate.
  - assert (Ec : c = v1). { destruct Hb as (l1 & l2 & E). destruct l1 as [|? [|? [|]]]; try discriminate. injection E as <- _. reflexivity. }
    subst c.
    assert (Ha' : edge (z :: B ++ [p0]) a p0).
    { rewrite <- app_assoc in Ha.
      change ((A' ++ (z :: B) ++ [p0])) with (A' ++ z :: B ++ [p0]) in Ha. rewrite edge_join in Ha.
      destruct Ha as [Ha|Ha]; [|exact Ha]. exfalso. rewrite <- EA in Ha.
      (* p0 is below all points: no edge of the lower chain ends in it *)
      assert (H := HA _ _ Ha).
      assert (Hgt : forall l p, (forall a b, edge (p :: l) a b -> lt2 a b) -> forall q, In q l -> lt2 p q).
      { clear. induction l as [|b l IH]; intros p Hup q []; subst.
        - apply Hup. exists [], l. reflexivity.
        - eapply lt2_trans; [apply (Hup p b); exists [], l; reflexivity|]. apply IH; auto.
          intros a' b' (l1 & l2 & E). apply Hup. exists (p :: l1), l2. cbn [app]. rewrite E. reflexivity. }
      assert (Hin := edge_In _ _ _ Ha). destruct Hin as ([Hin|Hin] & _).
      - subst a. exact (lt2_irrefl _ H).
      - apply (lt2_irrefl p0). eapply lt2_trans; [|exact H]. apply (Hgt (v1 :: A) p0 HA). exact Hin. }
    apply corner_strict.
    + right. split; [apply HB; exact Ha'|apply HA; exact E01].
    + apply Hi. apply EdA in E01. apply edge_In in E01. tauto.
    + intros q. apply Hl. auto.
    + intros q. apply Hl. auto.
    + exact Hn.
Qed.

(* a linear function has its maximum on a vertex *)
Lemma argmax (f : pt -> Z) (l : list pt) : l <> [] -> exists v, In v l /\ forall w, In w l -> f w <= f v.
Proof.
  induction l as [|a l IH]; [congruence|]. intros _. destruct l as [|b l].
  - exists a. split; [left; reflexivity|]. intros w [<-|[]]. lia.
  - destruct IH as (v & Hv & Hm); [congruence|]. destruct (Z_le_gt_dec (f a) (f v)).
    + exists v. split; [right; exact Hv|]. intros w [<-|Hw]; auto.
    + exists a. split; [left; reflexivity|]. intros w [<-|Hw]; [lia|]. specialize (Hm w Hw). lia.
Qed.

Lemma convex_inside V q : (2 <= length V)%nat -> hd_error (rev V) = hd_error V ->
  (forall a b c, corner (around V) a b c -> 0 < area2 a b c) ->
  (forall a b, edge V a b -> 0 <= area2 a b q) -> in_hull_of V q.
Proof.
  intros Hlen Hcl Hc He a b c Hall.
  destruct V as [|v0 [|v1 V]]; cbn [length] in Hlen; try lia.
  destruct (argmax (fun p => a * fst p + b * snd p) (v0 :: v1 :: V)) as (v & Hv & Hm); [congruence|].
  assert (Hv' : In v (v1 :: V)).
  { destruct Hv as [<-|Hv]; [|exact Hv]. cbn [rev] in Hcl. cbn [hd_error] in Hcl.
    destruct (exists_last (l := v1 :: V)) as (l & x & E); [congruence|]. 
    change (rev V ++ [v1]) with (rev (v1 :: V)) in Hcl. rewrite E, rev_app_distr in Hcl. cbn in Hcl. injection Hcl as ->.
    rewrite E. apply in_or_app; right; left; reflexivity. }
  apply in_split in Hv' as (l1 & l2 & E).
  (* predecessor and successor *)
  assert (Hp : exists s m, v0 :: l1 = m ++ [s]) .
  { destruct (exists_last (l := v0 :: l1)) as (m & s & E'); [congruence|]. eauto. }
  destruct Hp as (s & m & Ep).
  assert (Eall : v0 :: v1 :: V = m ++ s :: v :: l2).
  { rewrite E. change (v0 :: l1 ++ v :: l2) with ((v0 :: l1) ++ v :: l2). rewrite Ep, <- app_assoc. reflexivity. }
  assert (Esv : edge (v0 :: v1 :: V) s v) by (exists m, l2; exact Eall).
  assert (Hn : exists n, corner (around (v0 :: v1 :: V)) s v n /\ edge (v0 :: v1 :: V) v n).
  { unfold around. cbn [skipn firstn]. rewrite Eall. destruct l2 as [|n l2].
    - exists v1. split; [exists m, []; rewrite <- app_assoc; reflexivity|]. rewrite <- Eall.
      (* v is the last vertex, that is v0 *)
      assert (v = v0) as ->.
      { rewrite Eall in Hcl at 1. change (m ++ [s; v]) with (m ++ [s] ++ [v]) in Hcl.
        rewrite app_assoc, rev_app_distr in Hcl. cbn in Hcl. congruence. }
      exists [], V. reflexivity.
    - exists n. split; [exists m, (l2 ++ [v1]); rewrite <- app_assoc; reflexivity|]. exists (m ++ [s]), l2.
      rewrite <- app_assoc. reflexivity. }
  destruct Hn as (n & Hcn & Hen).
  assert (T := Hc _ _ _ Hcn). assert (A1 := He _ _ Esv). assert (A2 := He _ _ Hen).
  assert (D1 := Hm s (proj1 (edge_In _ _ _ Esv))). assert (D2 := Hm n (proj2 (edge_In _ _ _ Hen))).
  assert (D3 := Hall v Hv). cbv beta in D1, D2.
  clear - T A1 A2 D1 D2 D3. unfold area2 in *.
  destruct s as [sx sy], v as [vx vy], n as [nx ny], q as [qx qy]. cbn [fst snd] in *.
  set (k := (vx - sx) * (ny - sy) - (vy - sy) * (nx - sx)) in *.
  set (al := (vx - sx) * (qy - sy) - (vy - sy) * (qx - sx)) in *.
  set (be := (nx - vx) * (qy - vy) - (ny - vy) * (qx - vx)) in *.
  assert (k * (a * qx + b * qy - (a * vx + b * vy)) =
          al * (a * nx + b * ny - (a * vx + b * vy)) + be * (a * sx + b * sy - (a * vx + b * vy))).
  { unfold k, al, be. ring. }
  nia.
Qed.

Lemma in_hull_edges q : in_hull_of pts q -> forall a b, edge (vhull pts) a b -> 0 <= area2 a b q.
Proof.
  intros H a b He.
  specialize (H (snd b - snd a) (- (fst b - fst a)) ((snd b - snd a) * fst a - (fst b - fst a) * snd a)).
  cut ((snd b - snd a) * fst q + - (fst b - fst a) * snd q <= (snd b - snd a) * fst a - (fst b - fst a) * snd a).
  { unfold area2. lia. }
  apply H. intros p Hp. assert (0 <= area2 a b p) by (apply (vhull_left pts Hne Hs); assumption).
  unfold area2 in *. lia.
Qed.

Lemma vhull_is_hull q : ~ collinear pts ->
  ((forall a b, edge (vhull pts) a b -> 0 <= area2 a b q) <-> in_hull_of pts q).
Proof.
  intros Hn. split; [|apply in_hull_edges].
  intros He a b c Hall. apply (convex_inside (vhull pts) q).
  - destruct (vhull_shape Hn) as (p0 & v1 & z & A & B & EV & _). rewrite EV. cbn [length]. lia.
  - destruct (vhull_closed pts Hne) as (p & -> & ->). reflexivity.
  - intros x y w. apply vhull_corners. exact Hn.
  - exact He.
  - intros p Hp. apply Hall. apply (vhull_incl pts Hne Hs). exact Hp.
Qed.

(* collinear points *)
Lemma vhull_collinear p0 z : hd_error pts = Some p0 -> hd_error (rev pts) = Some z -> collinear pts ->
  (2 <= length pts)%nat -> vhull pts = [p0; z; p0].
Proof.
  intros H0 Hz Hcol Hlen. destruct (vhull_halves pts p0 z H0 Hz) as (L & U & EL & EU & EV & (L' & E1) & (U' & E2)).
  assert (HL : L = [p0]).
  { assert (Hlen1 : exists a b S, z :: L = a :: b :: S).
    { destruct pts as [|p r]; [discriminate|]. destruct (exists_last (l := r)) as (r' & q & ->); [intros ->; cbn in Hlen; lia|].
      rewrite <- EL. apply chain_two. }
    destruct (chain_inv pts Hne Hs) as [I|(p & E & _ & _)].
    - destruct Hlen1 as (a & b & S & E). injection E as <- ->. destruct S as [|c S].
      + destruct L' as [|? [|? [|]]]; try discriminate. injection E1 as _ <-. reflexivity.
      + exfalso. assert (T : 0 < area2 c b z) by (apply (si_turn _ _ I); rewrite EL; exists [], S; reflexivity).
        rewrite (Hcol c b z) in T; [lia|..]; apply (si_incl _ _ I); rewrite EL; cbn; auto.
    - rewrite EL in E. injection E as -> ->. destruct L' as [|? [|? [|]]]; try discriminate. injection E1 as _ <-. reflexivity. }
  assert (HU : U = [p0]).
  { assert (Hlen1 : exists a b S, U ++ [z] = a :: b :: S).
    { rewrite <- EU. assert (Hr : (2 <= length (rev pts))%nat) by (rewrite rev_length; exact Hlen).
      destruct (rev pts) as [|p r]; [discriminate|]. destruct (exists_last (l := r)) as (r' & q & ->); [intros ->; cbn in Hr; lia|].
      apply chain_two. }
    destruct (upper_inv pts Hne Hs) as [I|(p & E & _ & _)].
    - destruct Hlen1 as (a & b & S & E). destruct S as [|c S].
      + destruct U as [|u [|? [|]]]; try discriminate. injection E2 as -> _. reflexivity.
      + exfalso. assert (T : 0 < area2 c b a) by (apply (ui_turn _ _ I); rewrite EU, E; exists [], S; reflexivity).
        rewrite (Hcol c b a) in T; [lia|..]; apply (ui_incl _ _ I); rewrite EU, E; cbn; auto.
    - rewrite EU in E. destruct U as [|u [|? [|]]]; try discriminate. injection E2 as -> _. reflexivity. }
  rewrite EV, HL, HU. reflexivity.
Qed.
Lemma vhull_single p : pts = [p] -> vhull pts = [p].
Proof. intros ->. reflexivity. Qed.
End H.
