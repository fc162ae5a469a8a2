(* Proofs about clipping: the weight of one pixel of the destination is an area. *)
From Coq Require Import QArith Qabs Qround Lqa Setoid Morphisms Qminmax.
From Verif Require Import Base DrizModel DrizSpec DrizProofs DrizProofs2 DrizProofs3 DrizProofs4 DrizProofs5 DrizProofs6.
Local Open Scope Q_scope.

(* --- exact cuts, by any lines --- *)
Definition inn0 (l : line) (p : point) : bool := qlt (g l p) 0.
Definition cr0 (l : line) (i1 i2 : point) : option point :=
  let s := g l i2 / (g l i2 - g l i1) in
  Some (fst i2 + s * (fst i1 - fst i2), snd i2 + s * (snd i1 - snd i2)).
Lemma qlt_spec a b : qlt a b = true <-> a < b.
Proof.
  unfold qlt. rewrite negb_true_iff. split; intros H.
  - apply Qnot_le_lt. intros K. apply Qle_bool_iff in K. congruence.
  - destruct (Qle_bool b a) eqn:K; [|reflexivity]. apply Qle_bool_iff in K. lra.
Qed.
Lemma qlt_false a b : qlt a b = false <-> b <= a.
Proof.
  split; intros H.
  - destruct (Qlt_le_dec a b) as [K|K]; [apply qlt_spec in K; congruence|exact K].
  - destruct (qlt a b) eqn:K; [apply qlt_spec in K; lra|reflexivity].
Qed.
Lemma inn0_spec l p : inn0 l p = true <-> g l p < 0.
Proof. apply qlt_spec. Qed.
Lemma opposite (P : point -> bool) (v : point -> Q) i1 i2 : (forall p, P p = true <-> v p < 0) -> P i1 <> P i2 ->
  (v i1 < 0 /\ 0 <= v i2) \/ (v i2 < 0 /\ 0 <= v i1).
Proof.
  intros H N. destruct (P i1) eqn:A, (P i2) eqn:B; try congruence.
  - left. split; [apply H, A|]. destruct (Qlt_le_dec (v i2) 0) as [K|K]; [apply H in K; congruence|exact K].
  - right. split; [apply H, B|]. destruct (Qlt_le_dec (v i1) 0) as [K|K]; [apply H in K; congruence|exact K].
Qed.
Lemma ratio_unit a b : (a < 0 /\ 0 <= b) \/ (b < 0 /\ 0 <= a) -> 0 <= b / (b - a) /\ b / (b - a) <= 1.
Proof.
  intros [[A B]|[B A]].
  - split; [apply div_nonneg; lra|apply Qle_shift_div_r; lra].
  - assert (E : b / (b - a) == (- b) / (a - b)) by (field; split; lra). rewrite E.
    split; [apply div_nonneg; lra|apply Qle_shift_div_r; lra].
Qed.
Lemma cr0_some l i1 i2 e : inn0 l i1 <> inn0 l i2 -> cr0 l i1 i2 = Some e -> on_seg i2 i1 e /\ g l e == 0.
Proof.
  intros N E. assert (D := opposite (inn0 l) (g l) i1 i2 (inn0_spec l) N).
  destruct (ratio_unit _ _ D) as [R0 R1]. unfold cr0 in E. injection E as <-.
  set (s := g l i2 / (g l i2 - g l i1)) in *. split.
  - exists s. cbn [fst snd]. repeat split; lra.
  - rewrite (g_seg l i2 i1 _ s); [|reflexivity|reflexivity]. unfold s. field. destruct D; lra.
Qed.
Lemma cr0_none l i1 i2 : inn0 l i1 <> inn0 l i2 -> cr0 l i1 i2 = None -> - 0 <= g l i1 /\ - 0 <= g l i2.
Proof. discriminate. Qed.

Lemma map_id_eq {A} (l : list A) : map (fun x => x) l = l.
Proof. induction l; simpl; congruence. Qed.
Definition exact (ls : list line) (ps : list point) : list point := run line inn0 cr0 ls ps.
Definition widths (ls : list line) (x0 x1 y : Q) : Q := clamps 0 ls y x1 - clamps 0 ls y x0.
Lemma exact_sections ls x0 y0 x1 y1 y : x0 <= x1 -> y0 < y -> y < y1 -> proper ls -> notin y (heights 0 ls) ->
  cyc (Ef idq y) (exact ls (rect x0 y0 x1 y1)) == widths ls x0 x1 y.
Proof.
  intros Lx Y0 Y1 P N. assert (F := heights_fair 0 ls y P N).
  assert (C : conv (rect x0 y0 x1 y1)) by (apply rect_conv; lra).
  assert (U := run_up line (fun l => l) inn0 cr0 inn0_spec cr0_some y ls (rect x0 y0 x1 y1) idq).
  assert (L := run_low line (fun l => l) inn0 cr0 0 (Qle_refl 0) inn0_spec cr0_some cr0_none y ls (rect x0 y0 x1 y1) idq).
  rewrite map_id_eq in U, L. specialize (U F mono_id C).
  assert (F' : Forall (fun l => fair (- 0) l y) ls) by exact F.
  specialize (L F' mono_id C). change (- 0) with 0 in L.
  assert (R : cyc (Ef (fun x => idq (clamps 0 ls y x)) y) (rect x0 y0 x1 y1) == widths ls x0 x1 y).
  { apply (rect_cyc (fun x => idq (clamps 0 ls y x))); [|exact Y0|exact Y1].
    intros x x' H. apply clamps_mono, H. }
  rewrite R in U, L. unfold exact. apply Qle_antisym; assumption.
Qed.
Lemma exact_integral ls x0 y0 x1 y1 : x0 <= x1 -> y0 <= y1 -> proper ls ->
  integral (widths ls x0 x1) y0 y1 (polyon_area (exact ls (rect x0 y0 x1 y1))).
Proof.
  intros Lx Ly P.
  assert (C : conv (rect x0 y0 x1 y1)) by (apply rect_conv; assumption).
  assert (I : integral (fun y => cyc (Ef idq y) (exact ls (rect x0 y0 x1 y1))) y0 y1
                (polyon_area (exact ls (rect x0 y0 x1 y1)))).
  { apply polygon_integral; [exact Ly| |].
    - apply (run_in line (fun l => l) inn0 cr0 cr0_some (high y0 y1)); [intros a b e; apply seg_high|].
      unfold rect, high. repeat constructor; cbn; lra.
    - apply (run_conv line (fun l => l) inn0 cr0 cr0_some). exact C. }
  apply (strips_map _ _ (heights 0 ls) _ _ _ I). intros y len Y0 Y1 N E.
  rewrite <- E. symmetry. apply exact_sections; assumption.
Qed.

Definition box (x0 y0 x1 y1 : Q) : region := fun x y => x0 <= x /\ x <= x1 /\ y0 <= y /\ y <= y1.
Definition below (t : Q) (ls : list line) : region := fun x y => forall l, In l ls -> g l (x, y) < t.
Lemma clamps_section t ls x0 y0 x1 y1 y : x0 < x1 -> y0 < y -> y < y1 ->
  section (both (box x0 y0 x1 y1) (below t ls)) y (clamps t ls y x1 - clamps t ls y x0).
Proof.
  intros Lx Y0 Y1. apply J_section.
  assert (H : J x0 x1 (fun x => x0 <= x /\ x <= x1)).
  { left. split; [exact Lx|]. split; intros x; intros; lra. }
  destruct (J_steps t ls y x0 x1 _ H) as [(L & T1 & T2)|(L & p & Tp)].
  - left. split; [exact L|]. split.
    + intros x X1 X2. destruct (T1 x X1 X2) as [B D]. split; [unfold box; lra|exact D].
    + intros x [B D]. apply T2. split; [unfold box in B; lra|exact D].
  - right. split; [exact L|]. exists p. intros x [B D]. apply Tp. split; [unfold box in B; lra|exact D].
Qed.
Lemma exact_area ls x0 y0 x1 y1 : x0 < x1 -> y0 <= y1 -> proper ls ->
  area (both (box x0 y0 x1 y1) (below 0 ls)) y0 y1 (polyon_area (exact ls (rect x0 y0 x1 y1))).
Proof.
  intros Lx Ly P. apply area_strips.
  apply (strips_map _ _ [] _ _ _ (exact_integral ls x0 y0 x1 y1 ltac:(lra) Ly P)).
  intros y len Y0 Y1 _ E. destruct (clamps_section 0 ls x0 y0 x1 y1 y Lx Y0 Y1) as (a & b & L & El & S1 & S2).
  exists a, b. split; [exact L|]. split; [|split; assumption]. rewrite <- E. exact El.
Qed.
(* lines moved inwards *)
Definition shift (t : Q) (l : line) : line := let '(a, b, c) := l in (a, b, c + t).
Lemma shift_g t l p : g (shift t l) p == g l p + t.
Proof. destruct l as [[a b] c]. unfold shift, g. ring. Qed.
Lemma shift_proper t ls : proper ls -> proper (map (shift t) ls).
Proof.
  unfold proper. rewrite !Forall_forall. intros H l I. apply in_map_iff in I. destruct I as (l' & <- & I).
  specialize (H l' I). destruct l' as [[a b] c]. exact H.
Qed.
Lemma area_ext (S T : region) a b A : (forall x y, S x y <-> T x y) -> area S a b A -> area T a b A.
Proof.
  intros H K. induction K as [a b m k L Hs|a b c A B K1 IH1 K2 IH2|a b A a' b' A' Ea Eb EA K IH].
  - apply area_strip; [exact L|]. intros y Y1 Y2. destruct (Hs y Y1 Y2) as (p & q & Lp & E & I1 & I2).
    exists p, q. split; [exact Lp|]. split; [exact E|]. split.
    + intros x X1 X2. apply H, I1; assumption.
    + intros x Tx. apply I2, H, Tx.
  - eapply area_join; eassumption.
  - eapply area_eq; eassumption.
Qed.
Lemma area_mono (S T : region) a b A B : (forall x y, S x y -> T x y) -> area S a b A -> area T a b B -> A <= B.
Proof.
  intros H K1 K2. apply area_strips in K1. apply area_strips in K2.
  apply (strips_mono _ _ [] a b A B K1 K2). intros y len len' _ _ _ S1 S2.
  eapply section_le; [exact S1|exact S2|]. intros x. apply H.
Qed.
Lemma area_unique S a b A B : area S a b A -> area S a b B -> A == B.
Proof. intros H K. apply Qle_antisym; eapply area_mono; try eassumption; auto. Qed.
Lemma area_empty (S : region) a b : a <= b -> (forall x y, ~ S x y) -> area S a b 0.
Proof.
  intros L H. eapply area_eq; [reflexivity|reflexivity| |apply (area_strip S a b 0 0 L)].
  - ring.
  - intros y _ _. exists 0, 0. split; [lra|]. split; [ring|]. split; [intros; lra|].
    intros x Sx. exfalso. apply (H x y Sx).
Qed.

(* --- the edges of the projection --- *)
Definition lineof (o : Q) (k : point * point) : line :=
  let '(c1, c2) := k in
  (- o * (snd c2 - snd c1), o * (fst c2 - fst c1), o * ((snd c2 - snd c1) * fst c1 - (fst c2 - fst c1) * snd c1)).
Lemma lineof_g o c1 c2 p : g (lineof o (c1, c2)) p == side c1 c2 p * o.
Proof. unfold lineof, g, side. ring. Qed.
Fixpoint keys (c2 : point) (cs : list point) : list (point * point) :=
  match cs with [] => [] | c1 :: t => (c1, c2) :: keys c1 t end.
Lemma keys_path cs : forall c2 z, path c2 cs z = map (fun '(q, p) => (p, q)) (keys c2 cs) ++ [(last cs c2, z)].
Proof.
  induction cs as [|c1 t IH]; intros c2 z; [reflexivity|].
  cbn [path keys map app]. rewrite (IH c1 z), last_cons. reflexivity.
Qed.
Lemma keys_edges cs d p q : cs <> [] -> (In (q, p) (keys (last cs d) cs) <-> In (p, q) (edges cs)).
Proof.
  intros N. destruct cs as [|c t]; [congruence|]. rewrite last_cons. cbn [keys edges].
  rewrite keys_path, in_app_iff, in_map_iff. cbn [In].
  split.
  - intros [E|I].
    + injection E as <- <-. right. left. reflexivity.
    + left. exists (q, p). auto.
  - intros [((q', p') & E & I)|[E|[]]].
    + injection E as <- <-. right. exact I.
    + left. injection E as <- <-. reflexivity.
Qed.

Section Model.
Variable o : Z.
Hypothesis o_unit : o = 1%Z \/ o = (-1)%Z.
Definition innm (k : point * point) (p : point) : bool := in_poly_edge o (fst k) (snd k) p.
Definition crm (k : point * point) (i1 i2 : point) : option point := segment_intersect (fst k) (snd k) i1 i2.
Lemma innm_spec k p : innm k p = true <-> g (lineof (inject_Z o) k) p < 0.
Proof.
  destruct k as [c1 c2]. rewrite lineof_g. apply qlt_spec.
Qed.
Lemma eps5_pos : 0 < eps5.
Proof. reflexivity. Qed.
Lemma o_sq : inject_Z o * inject_Z o == 1.
Proof. destruct o_unit as [->| ->]; reflexivity. Qed.
Lemma crm_det c1 c2 i1 i2 :
  (fst c2 - fst c1) * (snd i2 - snd i1) - (snd c2 - snd c1) * (fst i2 - fst i1)
  == side c1 c2 i2 - side c1 c2 i1.
Proof. unfold side. ring. Qed.
Lemma crm_some k i1 i2 e : innm k i1 <> innm k i2 -> crm k i1 i2 = Some e ->
  on_seg i2 i1 e /\ g (lineof (inject_Z o) k) e == 0.
Proof.
  intros N E. assert (D := opposite (innm k) (g (lineof (inject_Z o) k)) i1 i2 (innm_spec k) N).
  destruct k as [c1 c2]. rewrite !lineof_g in *.
  unfold crm, segment_intersect in E. cbn [fst snd] in E.
  match type of E with (if ?b then _ else _) = _ => destruct b eqn:T end; [discriminate|].
  apply qlt_false in T. injection E as <-.
  set (det := (fst c2 - fst c1) * (snd i2 - snd i1) - (snd c2 - snd c1) * (fst i2 - fst i1)) in *.
  assert (Z : ~ det == 0). { intros Z. rewrite Z in T. compute in T. apply T. reflexivity. }
  assert (Ed : det == side c1 c2 i2 - side c1 c2 i1) by apply crm_det.
  destruct (ratio_unit _ _ D) as [R0 R1].
  assert (Er : side c1 c2 i2 * inject_Z o / (side c1 c2 i2 * inject_Z o - side c1 c2 i1 * inject_Z o)
               == side c1 c2 i2 / det).
  { rewrite Ed. destruct o_unit as [Ho|Ho]; rewrite Ho; [change (inject_Z 1) with 1|change (inject_Z (-1)) with (-(1))]; field; lra. }
  rewrite Er in R0, R1. cbn [fst snd].
  split.
  - exists (side c1 c2 i2 / det). cbn [fst snd]. split; [exact R0|]. split; [exact R1|].
    split; unfold side; field_simplify_eq; try exact Z; unfold det; ring.
  - unfold side. cbn [fst snd]. ring.
Qed.
Lemma crm_none k i1 i2 : innm k i1 <> innm k i2 -> crm k i1 i2 = None ->
  - eps5 <= g (lineof (inject_Z o) k) i1 /\ - eps5 <= g (lineof (inject_Z o) k) i2.
Proof.
  intros N E. assert (D := opposite (innm k) (g (lineof (inject_Z o) k)) i1 i2 (innm_spec k) N).
  destruct k as [c1 c2]. rewrite !lineof_g in *.
  unfold crm, segment_intersect in E. cbn [fst snd] in E.
  match type of E with (if ?b then _ else _) = _ => destruct b eqn:T end; [|discriminate].
  apply qlt_spec in T. rewrite crm_det in T. apply Qabs_Qlt_condition in T.
  destruct o_unit as [Ho|Ho]; rewrite Ho in *; [change (inject_Z 1) with 1 in *|change (inject_Z (-1)) with (-(1)) in *]; lra.
Qed.
Lemma clip_from_run k i2 l : clip_from o (fst k) (snd k) i2 l = clipf (innm k) (crm k) i2 l.
Proof.
  revert i2; induction l as [|i1 t IH]; intros i2; [reflexivity|].
  cbn [clip_from clipf]. rewrite IH. reflexivity.
Qed.
Lemma clip_all_run cs : forall c2 ps, clip_all o c2 cs ps = run _ innm crm (keys c2 cs) ps.
Proof.
  induction cs as [|c1 t IH]; intros c2 ps; [reflexivity|].
  cbn [clip_all keys run]. rewrite IH. f_equal. unfold clip1, clip_edge.
  destruct ps as [|p ps]; [reflexivity|]. rewrite (clip_from_run (c1, c2)).
  rewrite (last_indep (p :: ps) c1 (0, 0)) by discriminate. reflexivity.
Qed.

Definition plines (proj : list point) : list line :=
  map (lineof (inject_Z o)) (keys (last proj (0, 0)) proj).
Lemma plines_below proj t x y : proj <> [] -> (below (- t) (plines proj) x y <-> deeper t (inject_Z o) proj x y).
Proof.
  intros N. unfold below, deeper, plines. split.
  - intros H p q I. apply (keys_edges proj (0, 0)) in I; [|exact N].
    specialize (H (lineof (inject_Z o) (q, p))). rewrite lineof_g in H.
    assert (K : side q p (x, y) * inject_Z o < - t) by (apply H; apply in_map; exact I).
    assert (E : side p q (x, y) == - side q p (x, y)) by (unfold side; ring).
    rewrite E. lra.
  - intros H l I. apply in_map_iff in I. destruct I as ([q p] & <- & I). rewrite lineof_g.
    apply (keys_edges proj (0, 0)) in I; [|exact N]. specialize (H p q I).
    assert (E : side p q (x, y) == - side q p (x, y)) by (unfold side; ring).
    rewrite E in H. lra.
Qed.

(* a degenerate edge *)
Lemma plines_dec proj : proper (plines proj) \/
  Exists (fun k => forall p, g (lineof (inject_Z o) k) p == 0) (keys (last proj (0, 0)) proj).
Proof.
  unfold plines, proper. induction (keys (last proj (0, 0)) proj) as [|[c1 c2] ks IH]; [left; constructor|].
  destruct IH as [IH|IH]; [|right; apply Exists_cons_tl, IH].
  destruct (Qeq_dec (snd c2 - snd c1) 0) as [A|A]; [destruct (Qeq_dec (fst c2 - fst c1) 0) as [B|B]|].
  - right. apply Exists_cons_hd. intros p. rewrite lineof_g. unfold side. rewrite A, B. ring.
  - left. constructor; [|exact IH]. cbn [lineof]. intros [_ F].
    destruct o_unit as [Ho|Ho]; rewrite Ho in F; [change (inject_Z 1) with 1 in F|change (inject_Z (-1)) with (-(1)) in F]; lra.
  - left. constructor; [|exact IH]. cbn [lineof]. intros [F _].
    destruct o_unit as [Ho|Ho]; rewrite Ho in F; [change (inject_Z 1) with 1 in F|change (inject_Z (-1)) with (-(1)) in F]; lra.
Qed.

Lemma pixel_box ix iy x y : in_pixel ix iy x y <->
  box (inject_Z ix - (1#2)) (inject_Z iy - (1#2)) (inject_Z ix + (1#2)) (inject_Z iy + (1#2)) x y.
Proof. unfold in_pixel, box. tauto. Qed.
Lemma overlap_box t proj ix iy x y : proj <> [] ->
  (both (box (inject_Z ix - (1#2)) (inject_Z iy - (1#2)) (inject_Z ix + (1#2)) (inject_Z iy + (1#2)))
        (below (- t) (plines proj)) x y <-> both (in_pixel ix iy) (deeper t (inject_Z o) proj) x y).
Proof.
  intros N. unfold both. rewrite pixel_box, plines_below by exact N. tauto.
Qed.
Lemma square_rect ix iy : square ix iy =
  rect (inject_Z ix - (1#2)) (inject_Z iy - (1#2)) (inject_Z ix + (1#2)) (inject_Z iy + (1#2)).
Proof. reflexivity. Qed.

(* the area of the overlap exists, whatever the depth *)
Lemma overlap_area t proj ix iy : 0 <= t -> proj <> [] ->
  exists A, area (both (in_pixel ix iy) (deeper t (inject_Z o) proj)) (inject_Z iy - (1#2)) (inject_Z iy + (1#2)) A.
Proof.
  intros Ht N. destruct (plines_dec proj) as [P|P].
  - eexists. eapply area_ext; [|apply (exact_area (map (shift t) (plines proj)) (inject_Z ix - (1#2)) _ (inject_Z ix + (1#2)))].
    + intros x y. rewrite <- (overlap_box t proj ix iy x y N). unfold both.
      apply and_iff_compat_l. unfold below. split.
      * intros H l I. specialize (H (shift t l) (in_map _ _ _ I)). rewrite shift_g in H. lra.
      * intros H l I. apply in_map_iff in I. destruct I as (l' & <- & I). rewrite shift_g. specialize (H l' I). lra.
    + lra.
    + lra.
    + apply shift_proper, P.
  - exists 0. apply area_empty; [lra|]. intros x y [_ D]. apply (plines_below proj t x y N) in D.
    apply Exists_exists in P. destruct P as (k & I & Z). specialize (D _ (in_map _ _ _ I)).
    rewrite (Z (x, y)) in D. lra.
Qed.

Lemma weight_integral proj ix iy :
  integral (fun y => cyc (Ef idq y) (intersection o proj ix iy)) (inject_Z iy - (1#2)) (inject_Z iy + (1#2))
    (polyon_area (intersection o proj ix iy)).
Proof.
  unfold intersection. rewrite clip_all_run. apply polygon_integral; [lra| |].
  - apply (run_in _ (lineof (inject_Z o)) innm crm crm_some); [intros a b e; apply seg_high|].
    rewrite square_rect. unfold rect, high. repeat constructor; cbn; lra.
  - apply (run_conv _ (lineof (inject_Z o)) innm crm crm_some). rewrite square_rect. apply rect_conv; lra.
Qed.
Lemma weight_up proj ix iy A : proj <> [] ->
  area (both (in_pixel ix iy) (inside (inject_Z o) proj)) (inject_Z iy - (1#2)) (inject_Z iy + (1#2)) A ->
  polyon_area (intersection o proj ix iy) <= A.
Proof.
  intros N HA. destruct (plines_dec proj) as [P|P].
  - apply area_strips in HA.
    apply (strips_mono _ _ (heights 0 (plines proj)) _ _ _ _ (weight_integral proj ix iy) HA).
    intros y len len' Y0 Y1 Nb E S. rewrite <- E. unfold intersection. rewrite clip_all_run.
    assert (F := heights_fair 0 _ y P Nb).
    assert (C : conv (square ix iy)) by (rewrite square_rect; apply rect_conv; lra).
    eapply Qle_trans; [apply (run_up _ (lineof (inject_Z o)) innm crm innm_spec crm_some y _ _ idq F mono_id C)|].
    fold (plines proj). rewrite square_rect.
    rewrite (rect_cyc (fun x => idq (clamps 0 (plines proj) y x))); [|intros x x' H; apply clamps_mono, H|exact Y0|exact Y1].
    unfold idq. eapply section_le; [apply clamps_section|exact S|]; [lra|exact Y0|exact Y1|].
    intros x H. apply (overlap_box 0 proj ix iy x y N). exact H.
  - unfold intersection. rewrite clip_all_run.
    rewrite (run_degenerate _ (lineof (inject_Z o)) innm crm innm_spec _ _ P).
    cbn. eapply area_mono; [|apply (area_empty (fun _ _ => False)); [|intros ? ? []]|exact HA]; [intros x y []|lra].
Qed.
Lemma weight_low proj ix iy A : proj <> [] ->
  area (both (in_pixel ix iy) (deeper eps5 (inject_Z o) proj)) (inject_Z iy - (1#2)) (inject_Z iy + (1#2)) A ->
  A <= polyon_area (intersection o proj ix iy).
Proof.
  intros N HA. pose proof eps5_pos as EP. destruct (plines_dec proj) as [P|P].
  - apply area_strips in HA.
    apply (strips_mono _ _ (heights (- eps5) (plines proj)) _ _ _ _ HA (weight_integral proj ix iy)).
    intros y len len' Y0 Y1 Nb S E. rewrite <- E. unfold intersection. rewrite clip_all_run.
    assert (F := heights_fair (- eps5) _ y P Nb).
    assert (C : conv (square ix iy)) by (rewrite square_rect; apply rect_conv; lra).
    eapply Qle_trans; [|apply (run_low _ (lineof (inject_Z o)) innm crm eps5 (Qlt_le_weak _ _ EP) innm_spec crm_some crm_none y _ _ idq F mono_id C)].
    fold (plines proj). rewrite square_rect.
    rewrite (rect_cyc (fun x => idq (clamps (- eps5) (plines proj) y x))); [|intros x x' H; apply clamps_mono, H|exact Y0|exact Y1].
    unfold idq. eapply section_le; [exact S|apply clamps_section|]; [lra|exact Y0|exact Y1|].
    intros x H. apply (overlap_box eps5 proj ix iy x y N). exact H.
  - unfold intersection. rewrite clip_all_run.
    rewrite (run_degenerate _ (lineof (inject_Z o)) innm crm innm_spec _ _ P).
    cbn. eapply area_mono; [|exact HA|apply (area_empty (fun _ _ => False)); [lra|intros ? ? []]].
    intros x y [_ D]. apply (plines_below proj eps5 x y N) in D.
    apply Exists_exists in P. destruct P as (k & I & Z). specialize (D _ (in_map _ _ _ I)).
    rewrite (Z (x, y)) in D. lra.
Qed.
End Model.
