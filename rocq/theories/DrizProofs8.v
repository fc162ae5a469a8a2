(* Proofs about areas: convex quadrilaterals, and cutting along the grid of pixels. *)
From Coq Require Import QArith Qabs Qround Lqa Setoid Morphisms Qminmax.
From Verif Require Import Base DrizModel DrizSpec DrizProofs DrizProofs2 DrizProofs3 DrizProofs4 DrizProofs5 DrizProofs6 DrizProofs7.
Local Open Scope Q_scope.

Lemma prod_pos a b : 0 < a -> 0 < b -> 0 < a * b.
Proof. apply Qmult_lt_0_compat. Qed.
Lemma prod_nn a b : 0 <= a -> 0 <= b -> 0 <= a * b.
Proof. apply Qmult_le_0_compat. Qed.

(* --- a point on the left of the four edges of a quadrilateral --- *)
Definition left4 (a b c d p : point) : Prop := 0 < side a b p /\ 0 < side b c p /\ 0 < side c d p /\ 0 < side d a p.
Lemma left4_any (f : point -> Q) (Hf : exists k l m, forall p, f p == k * fst p + l * snd p + m) a b c d p :
  left4 a b c d p -> f p < f a -> f p < f b -> f p < f c -> f p < f d -> False.
Proof.
  intros (S1 & S2 & S3 & S4) A B C D. destruct Hf as (k & l & m & Hf).
  destruct (Qlt_le_dec (side c a p) 0) as [N|N].
  - assert (S5 : 0 < side a c p) by (assert (E : side a c p == - side c a p) by (unfold side; ring); lra).
    assert (E : side c d p * (f a - f p) + side d a p * (f c - f p) + side a c p * (f d - f p) == 0).
    { rewrite !Hf. unfold side. ring. }
    pose proof (prod_pos (side c d p) (f a - f p)). pose proof (prod_pos (side d a p) (f c - f p)).
    pose proof (prod_pos (side a c p) (f d - f p)). lra.
  - assert (E : side b c p * (f a - f p) + side c a p * (f b - f p) + side a b p * (f c - f p) == 0).
    { rewrite !Hf. unfold side. ring. }
    pose proof (prod_pos (side b c p) (f a - f p)). pose proof (prod_nn (side c a p) (f b - f p)).
    pose proof (prod_pos (side a b p) (f c - f p)). lra.
Qed.
Lemma left4_above a b c d p : left4 a b c d p -> snd p < snd a -> snd p < snd b -> snd p < snd c -> snd p < snd d -> False.
Proof. apply (left4_any snd). exists 0, 1, 0. intros q. ring. Qed.
Lemma left4_below a b c d p : left4 a b c d p -> snd a < snd p -> snd b < snd p -> snd c < snd p -> snd d < snd p -> False.
Proof.
  intros L A B C D. apply (left4_any (fun q => - snd q)) with (a := a) (b := b) (c := c) (d := d) (p := p); try lra; [|exact L].
  exists 0, (-(1)), 0. intros q. ring.
Qed.
Lemma left4_right a b c d p : left4 a b c d p -> fst p < fst a -> fst p < fst b -> fst p < fst c -> fst p < fst d -> False.
Proof. apply (left4_any fst). exists 1, 0, 0. intros q. ring. Qed.
Lemma left4_left a b c d p : left4 a b c d p -> fst a < fst p -> fst b < fst p -> fst c < fst p -> fst d < fst p -> False.
Proof.
  intros L A B C D. apply (left4_any (fun q => - fst q)) with (a := a) (b := b) (c := c) (d := d) (p := p); try lra; [|exact L].
  exists (-(1)), 0, 0. intros q. ring.
Qed.
(* the corners of a convex quadrilateral do not alternate around a height *)
Lemma left4_ac a b c d p : convex4 a b c d -> left4 a b c d p ->
  snd a <= snd p -> snd c <= snd p -> snd p < snd b -> snd p < snd d -> False.
Proof.
  intros (C1 & C2 & C3 & C4) (S1 & S2 & S3 & S4) A C B D.
  assert (E : side b c d * (snd p - snd a) + side a b d * (snd p - snd c)
              + (side a c d * (snd b - snd p) + side a b c * (snd d - snd p)) == 0) by (unfold side; ring).
  pose proof (prod_nn (side b c d) (snd p - snd a)). pose proof (prod_nn (side a b d) (snd p - snd c)).
  pose proof (prod_nn (side a c d) (snd b - snd p)). pose proof (prod_nn (side a b c) (snd d - snd p)).
  assert (T : side a b c + side a c d == side a b p + side b c p + side c d p + side d a p) by (unfold side; ring).
  destruct (Qlt_le_dec 0 (side a b c)) as [K|K].
  - pose proof (prod_pos (side a b c) (snd d - snd p)). lra.
  - destruct (Qlt_le_dec 0 (side a c d)) as [K'|K'].
    + pose proof (prod_pos (side a c d) (snd b - snd p)). lra.
    + lra.
Qed.
Lemma left4_bd a b c d p : convex4 a b c d -> left4 a b c d p ->
  snd b <= snd p -> snd d <= snd p -> snd p < snd a -> snd p < snd c -> False.
Proof.
  intros (C1 & C2 & C3 & C4) (S1 & S2 & S3 & S4) B D A C.
  apply (left4_ac b c d a p); try assumption.
  - unfold convex4. pose proof (side_rot a b c). pose proof (side_rot a b d). pose proof (side_rot a c d).
    pose proof (side_rot b c d). repeat split; lra.
  - repeat split; assumption.
Qed.

(* --- the clamps of a convex quadrilateral --- *)
Lemma clamps_fix t ls y x : Forall (fun l => fair t l y) ls -> Forall (fun l => g l (x, y) <= t) ls ->
  forall x', x' == x -> clamps t ls y x' == x.
Proof.
  induction ls as [|l ls IH]; intros F G x' E; [exact E|]. inversion F; inversion G; subst.
  cbn [clamps fold_left]. apply IH; [assumption|assumption|].
  rewrite (mono_eq _ _ _ (clamp_mono t l y) E). apply clamp_in; assumption.
Qed.
Lemma clamps_cap t ls y v l : In l ls -> (forall x, clamp t l y x <= v) ->
  Forall (fun l => fair t l y) ls -> Forall (fun l => g l (v, y) <= t) ls ->
  forall x, clamps t ls y x <= v.
Proof.
  induction ls as [|l0 ls IH]; intros I K F G x; [destruct I|]. inversion F; inversion G; subst.
  cbn [clamps fold_left]. destruct I as [->|I].
  - eapply Qle_trans; [apply clamps_mono, K|]. fold (clamps t ls y v).
    rewrite (clamps_fix t ls y v); [lra|assumption|assumption|reflexivity].
  - apply IH; assumption.
Qed.
Lemma clamps_floor t ls y v l : In l ls -> (forall x, v <= clamp t l y x) ->
  Forall (fun l => fair t l y) ls -> Forall (fun l => g l (v, y) <= t) ls ->
  forall x, v <= clamps t ls y x.
Proof.
  induction ls as [|l0 ls IH]; intros I K F G x; [destruct I|]. inversion F; inversion G; subst.
  cbn [clamps fold_left]. destruct I as [->|I].
  - eapply Qle_trans; [|apply clamps_mono, K]. fold (clamps t ls y v).
    rewrite (clamps_fix t ls y v); [lra|assumption|assumption|reflexivity].
  - apply IH; assumption.
Qed.

Section Quad.
Variables a b c d : point.
Hypothesis Cv : convex4 a b c d.
Let P : list point := [a; b; c; d].
Let ls : list line := plines 1 P.
Hypothesis Pr : proper ls.
Variables x0 x1 : Q.
Hypothesis wide_lt : x0 < x1.
Hypothesis wide_ok : Forall (fun p => x0 <= fst p /\ fst p <= x1) P.

Lemma ls_eq : ls = [lineof 1 (a, d); lineof 1 (b, a); lineof 1 (c, b); lineof 1 (d, c)].
Proof. reflexivity. Qed.
Lemma corners_in p l : In p P -> In l ls -> g l p <= 0.
Proof.
  destruct Cv as (C1 & C2 & C3 & C4).
  rewrite ls_eq. intros Ip Il.
  assert (Hm : inject_Z 1 == 1) by reflexivity.
  repeat (destruct Il as [<-|Il]; [rewrite lineof_g|]); try contradiction;
    repeat (destruct Ip as [<-|Ip]); try contradiction; unfold side in *; lra.
Qed.

Variable y : Q.
Hypothesis Fy : Forall (fun l => fair 0 l y) ls.
Hypothesis Hy : Forall (fun p => ~ snd p == y) P.
Let C (x : Q) : Q := clamps 0 ls y x.

Lemma X_in p q : In p P -> In q P -> ~ u p y == u q y -> Forall (fun l => g l (X p q y, y) <= 0) ls.
Proof.
  intros Ip Iq U. apply Forall_forall. intros l Il.
  apply (g_le l 0 p q _ (X_seg p q y U)); apply corners_in; assumption.
Qed.
Lemma X_range p q : In p P -> In q P -> ~ u p y == u q y -> x0 <= X p q y /\ X p q y <= x1.
Proof.
  intros Ip Iq U. destruct (X_seg p q y U) as (s & S0 & S1 & Ex & _). cbn [fst] in Ex.
  rewrite Forall_forall in wide_ok. destruct (wide_ok p Ip), (wide_ok q Iq).
  pose proof (prod_nn (1 - s) (fst p - x0)). pose proof (prod_nn s (fst q - x0)).
  pose proof (prod_nn (1 - s) (x1 - fst p)). pose proof (prod_nn s (x1 - fst q)). lra.
Qed.
Lemma C_X p q : In p P -> In q P -> ~ u p y == u q y -> C (X p q y) == X p q y.
Proof. intros Ip Iq U. apply clamps_fix; [exact Fy|apply X_in; assumption|reflexivity]. Qed.
Lemma line_X p q : ~ u p y == u q y -> g (lineof 1 (q, p)) (X p q y, y) == 0.
Proof.
  intros U. destruct (X_seg p q y U) as (s & _ & _ & Ex & Ey). rewrite lineof_g. unfold side.
  cbn [fst snd] in *. rewrite Ex, Ey. ring.
Qed.
Lemma C_up p q : In p P -> In q P -> In (lineof 1 (q, p)) ls -> snd p <= y -> y < snd q -> C x1 == X p q y.
Proof.
  intros Ip Iq Il Y0 Y1.
  assert (U : ~ u p y == u q y) by (rewrite u_lo, u_hi by assumption; discriminate).
  assert (Z := line_X p q U). apply Qle_antisym.
  - apply (clamps_cap 0 ls y (X p q y) (lineof 1 (q, p)) Il); [|exact Fy|apply X_in; assumption].
    intros x. unfold lineof, g, clamp in *. cbn [fst snd] in Z.
    destruct (Qlt_le_dec 0 (- (1) * (snd p - snd q))) as [A|A]; [|lra].
    assert (K : (0 - 1 * (fst p - fst q) * y - 1 * ((snd p - snd q) * fst q - (fst p - fst q) * snd q)) / (- (1) * (snd p - snd q)) == X p q y).
    { unfold X. field. split; lra. }
    dec; lra.
  - rewrite <- (C_X p q Ip Iq U). apply clamps_mono. apply (X_range p q Ip Iq U).
Qed.
Lemma C_dn p q : In p P -> In q P -> In (lineof 1 (q, p)) ls -> snd q <= y -> y < snd p -> C x0 == X p q y.
Proof.
  intros Ip Iq Il Y0 Y1.
  assert (U : ~ u p y == u q y) by (rewrite (u_hi p), (u_lo q) by assumption; discriminate).
  assert (Z := line_X p q U). apply Qle_antisym.
  - rewrite <- (C_X p q Ip Iq U). apply clamps_mono. apply (X_range p q Ip Iq U).
  - apply (clamps_floor 0 ls y (X p q y) (lineof 1 (q, p)) Il); [|exact Fy|apply X_in; assumption].
    intros x. unfold lineof, g, clamp in *. cbn [fst snd] in Z.
    destruct (Qlt_le_dec 0 (- (1) * (snd p - snd q))) as [A|A]; [lra|].
    destruct (Qlt_le_dec (- (1) * (snd p - snd q)) 0) as [A'|A']; [|lra].
    assert (K : (0 - 1 * (fst p - fst q) * y - 1 * ((snd p - snd q) * fst q - (fst p - fst q) * snd q)) / (- (1) * (snd p - snd q)) == X p q y).
    { unfold X. field. split; lra. }
    dec; lra.
Qed.
(* a section that is not empty has a point inside *)
Lemma C_point : C x0 < C x1 -> exists x, left4 a b c d (x, y).
Proof.
  intros L.
  assert (H : J x0 x1 (fun x => x0 <= x /\ x <= x1)).
  { left. split; [exact wide_lt|]. split; intros x; intros; lra. }
  destruct (J_steps 0 ls y x0 x1 _ H) as [(_ & T1 & _)|(L' & _)].
  - fold (C x0) in T1. fold (C x1) in T1. exists ((C x0 + C x1) / 2).
    destruct (T1 ((C x0 + C x1) / 2)) as [_ G].
    + apply Qlt_shift_div_l; lra.
    + apply Qlt_shift_div_r; lra.
    + rewrite ls_eq in G. unfold left4.
      assert (G1 := G (lineof 1 (a, d))). assert (G2 := G (lineof 1 (b, a))).
      assert (G3 := G (lineof 1 (c, b))). assert (G4 := G (lineof 1 (d, c))).
      rewrite lineof_g in G1, G2, G3, G4. cbn [In] in G1, G2, G3, G4.
      specialize (G1 ltac:(auto)). specialize (G2 ltac:(auto)). specialize (G3 ltac:(auto 6)). specialize (G4 ltac:(auto 6)).
      unfold side in *. cbn [fst snd] in *. repeat split; lra.
  - fold (C x0) in L'. fold (C x1) in L'. lra.
Qed.
Lemma C_same : (forall x, ~ left4 a b c d (x, y)) -> C x1 == C x0.
Proof.
  intros N. destruct (Qlt_le_dec (C x0) (C x1)) as [L|L].
  - destruct (C_point L) as [x Lx]. exfalso. apply (N x Lx).
  - apply Qle_antisym; [exact L|]. apply clamps_mono. lra.
Qed.

Lemma quad_section : cyc (Ef idq y) P == widths ls x0 x1 y.
Proof.
  unfold widths. fold (C x0) (C x1).
  assert (Ia : In a P) by (left; reflexivity). assert (Ib : In b P) by (right; left; reflexivity).
  assert (Ic : In c P) by (do 2 right; left; reflexivity). assert (Id : In d P) by (do 3 right; left; reflexivity).
  assert (L1 : In (lineof 1 (a, d)) ls) by (rewrite ls_eq; left; reflexivity).
  assert (L2 : In (lineof 1 (b, a)) ls) by (rewrite ls_eq; right; left; reflexivity).
  assert (L3 : In (lineof 1 (c, b)) ls) by (rewrite ls_eq; do 2 right; left; reflexivity).
  assert (L4 : In (lineof 1 (d, c)) ls) by (rewrite ls_eq; do 3 right; left; reflexivity).
  assert (Ha : ~ snd a == y) by (inversion Hy; assumption).
  assert (Hb : ~ snd b == y) by (rewrite Forall_forall in Hy; apply Hy, Ib).
  assert (Hc : ~ snd c == y) by (rewrite Forall_forall in Hy; apply Hy, Ic).
  assert (Hd : ~ snd d == y) by (rewrite Forall_forall in Hy; apply Hy, Id).
  unfold P, cyc. cbn [last chain]. unfold Ef, idq.
  pose proof (C_up d a Id Ia L1) as U1. pose proof (C_up a b Ia Ib L2) as U2.
  pose proof (C_up b c Ib Ic L3) as U3. pose proof (C_up c d Ic Id L4) as U4.
  pose proof (C_dn d a Id Ia L1) as D1. pose proof (C_dn a b Ia Ib L2) as D2.
  pose proof (C_dn b c Ib Ic L3) as D3. pose proof (C_dn c d Ic Id L4) as D4.
  destruct (u_cases a y) as [[A ->]|[A ->]], (u_cases b y) as [[B ->]|[B ->]],
    (u_cases c y) as [[Cc ->]|[Cc ->]], (u_cases d y) as [[D ->]|[D ->]];
  repeat match goal with
  | H : ?x <= ?y -> _ , K : ?x <= ?y |- _ => specialize (H K)
  | H : ?x < ?y -> _ , K : ?x < ?y |- _ => specialize (H K)
  end; try lra.
  - assert (E : C x1 == C x0); [|lra]. apply C_same. intros x L. apply (left4_below _ _ _ _ _ L); cbn [snd]; lra.
  - assert (E : C x1 == C x0); [|lra]. apply C_same. intros x L. apply (left4_ac _ _ _ _ _ Cv L); cbn [snd]; lra.
  - assert (E : C x1 == C x0); [|lra]. apply C_same. intros x L. apply (left4_bd _ _ _ _ _ Cv L); cbn [snd]; lra.
  - assert (E : C x1 == C x0); [|lra]. apply C_same. intros x L. apply (left4_above _ _ _ _ _ L); cbn [snd]; lra.
Qed.
End Quad.

Lemma quad_integral a b c d x0 y0 x1 y1 : convex4 a b c d -> proper (plines 1 [a; b; c; d]) ->
  x0 < x1 -> y0 <= y1 -> Forall (fun p => x0 <= fst p /\ fst p <= x1) [a; b; c; d] -> Forall (high y0 y1) [a; b; c; d] ->
  integral (widths (plines 1 [a; b; c; d]) x0 x1) y0 y1 (polyon_area [a; b; c; d]).
Proof.
  intros Cv Pr Lx Ly Wx Wy.
  assert (I := polygon_integral y0 y1 [a; b; c; d] Ly Wy (conv4 a b c d Cv)).
  apply (strips_map _ _ (heights 0 (plines 1 [a; b; c; d]) ++ map snd [a; b; c; d]) _ _ _ I).
  intros y len Y0 Y1 N E. rewrite <- E. symmetry.
  unfold notin in N. rewrite Forall_app in N. destruct N as [N1 N2].
  apply quad_section; try assumption.
  - apply heights_fair; assumption.
  - apply Forall_forall. intros p Ip. rewrite Forall_forall in N2. intros F. apply (N2 (snd p)); [apply in_map, Ip|]. symmetry; exact F.
Qed.
Lemma quad_area_box a b c d x0 y0 x1 y1 : convex4 a b c d -> proper (plines 1 [a; b; c; d]) ->
  x0 < x1 -> y0 <= y1 -> Forall (fun p => x0 <= fst p /\ fst p <= x1) [a; b; c; d] -> Forall (high y0 y1) [a; b; c; d] ->
  area (both (box x0 y0 x1 y1) (inside 1 [a; b; c; d])) y0 y1 (polyon_area [a; b; c; d]).
Proof.
  intros Cv Pr Lx Ly Wx Wy.
  assert (E := integral_unique _ _ _ _ _ (quad_integral a b c d x0 y0 x1 y1 Cv Pr Lx Ly Wx Wy)
    (exact_integral (plines 1 [a; b; c; d]) x0 y0 x1 y1 (Qlt_le_weak _ _ Lx) Ly Pr)).
  eapply area_eq; [reflexivity|reflexivity|symmetry; exact E|].
  eapply area_ext; [|apply exact_area; assumption].
  intros x y. unfold both. apply and_iff_compat_l.
  change 0 with (- 0). apply (plines_below 1 [a; b; c; d] 0). discriminate.
Qed.
