(* Proofs about clipping: the effect of one half-plane on the sections. *)
From Coq Require Import QArith Qabs Qround Lqa Setoid Morphisms Qminmax.
From Verif Require Import Base DrizModel DrizSpec DrizProofs DrizProofs2 DrizProofs3.
Local Open Scope Q_scope.

(* a line and the value of its equation at a point *)
Definition line : Type := Q * Q * Q.
Definition g (l : line) (p : point) : Q :=
  let '(a, b, c) := l in a * fst p + b * snd p + c.
(* moves x to the closest place of the line at height y where g is at most t; anywhere when there
   is none *)
Definition clamp (t : Q) (l : line) (y x : Q) : Q :=
  let '(a, b, c) := l in
  if Qlt_le_dec 0 a then (if Qlt_le_dec x ((t - b * y - c) / a) then x else (t - b * y - c) / a)
  else if Qlt_le_dec a 0 then (if Qlt_le_dec x ((t - b * y - c) / a) then (t - b * y - c) / a else x)
  else if Qlt_le_dec (b * y + c) t then x else 0.
(* y is not the height of a horizontal line *)
Definition fair (t : Q) (l : line) (y : Q) : Prop :=
  let '(a, b, c) := l in a == 0 -> ~ b * y + c == t.

Ltac dec := repeat match goal with
  | |- context [if Qlt_le_dec ?x ?y then _ else _] => destruct (Qlt_le_dec x y)
  | H : context [if Qlt_le_dec ?x ?y then _ else _] |- _ => destruct (Qlt_le_dec x y)
  end.

Lemma h_pos a b c t y : 0 < a -> forall x, x <= (t - b * y - c) / a <-> a * x + b * y + c <= t.
Proof.
  intros P x. assert (K : a * ((t - b * y - c) / a) == t - b * y - c) by (field; lra).
  split; intros H.
  - assert (a * x <= a * ((t - b * y - c) / a)) by (apply Qmult_le_l; assumption). lra.
  - apply (Qmult_le_l _ _ a P). lra.
Qed.
Lemma h_neg a b c t y : a < 0 -> forall x, (t - b * y - c) / a <= x <-> a * x + b * y + c <= t.
Proof.
  intros P x. assert (K : a * ((t - b * y - c) / a) == t - b * y - c) by (field; lra).
  assert (P' : 0 < - a) by lra.
  split; intros H.
  - assert ((- a) * ((t - b * y - c) / a) <= (- a) * x) by (apply Qmult_le_l; assumption). lra.
  - apply (Qmult_le_l _ _ (- a) P'). lra.
Qed.
Lemma h_val a b c t y : ~ a == 0 -> a * ((t - b * y - c) / a) + b * y + c == t.
Proof. intros H. field. exact H. Qed.

Lemma clamp_mono t l y : mono (clamp t l y).
Proof. intros x x' H. destruct l as [[a b] c]. unfold clamp. dec; lra. Qed.
Lemma clamp_gap t l y f : mono f -> mono (fun x => f x - f (clamp t l y x)).
Proof.
  intros M x x' H. destruct l as [[a b] c]. unfold clamp.
  set (h := (t - b * y - c) / a). dec; pose proof (M x x' H); try lra.
  - pose proof (M h x'). lra.
  - pose proof (M x h). lra.
Qed.
Lemma clamp_in t l y x : fair t l y -> g l (x, y) <= t -> clamp t l y x == x.
Proof.
  destruct l as [[a b] c]. unfold fair, g, clamp. cbn [fst snd]. intros F H.
  destruct (Qlt_le_dec 0 a) as [P|P].
  - apply (h_pos a b c t y P) in H. dec; lra.
  - destruct (Qlt_le_dec a 0) as [N|N].
    + apply (h_neg a b c t y N) in H. dec; lra.
    + assert (a == 0) by lra. dec; [lra|]. exfalso. apply F; [assumption|].
      assert (a * x == 0) by (rewrite H0; ring). lra.
Qed.
Definition edge_of (t : Q) (l : line) (y : Q) : Q :=
  let '(a, b, c) := l in
  if Qlt_le_dec 0 a then (t - b * y - c) / a else if Qlt_le_dec a 0 then (t - b * y - c) / a else 0.
Lemma clamp_out t l y x : t <= g l (x, y) -> clamp t l y x == edge_of t l y \/ (clamp t l y x == x /\ x == edge_of t l y).
Proof.
  destruct l as [[a b] c]. unfold g, clamp, edge_of. cbn [fst snd]. intros H.
  destruct (Qlt_le_dec 0 a) as [P|P].
  - left. dec; [|lra]. assert (K := h_pos a b c t y P x). 
    assert (V := h_val a b c t y). destruct (Qlt_le_dec x ((t - b * y - c) / a)) as [L|L]; [|lra].
    assert (a * x < a * ((t - b * y - c) / a)) by (apply Qmult_lt_l; assumption). lra.
  - destruct (Qlt_le_dec a 0) as [N|N].
    + left. dec; [lra|]. assert (V := h_val a b c t y).
      destruct (Qlt_le_dec ((t - b * y - c) / a) x) as [L|L]; [|lra].
      assert ((- a) * ((t - b * y - c) / a) < (- a) * x) by (apply Qmult_lt_l; lra). lra.
    + left. assert (Z : a == 0) by lra. dec; [|lra]. assert (a * x == 0) by (rewrite Z; ring). lra.
Qed.
Lemma clamp_out' t l y x : t <= g l (x, y) -> clamp t l y x == edge_of t l y.
Proof. intros H. destruct (clamp_out t l y x H) as [K|[K1 K2]]; lra. Qed.

Lemma g_seg l a b e s : fst e == fst a + s * (fst b - fst a) -> snd e == snd a + s * (snd b - snd a) ->
  g l e == (1 - s) * g l a + s * g l b.
Proof. intros H K. destruct l as [[p q] r]. unfold g. rewrite H, K. ring. Qed.
Lemma g_ge l t a b e : on_seg a b e -> t <= g l a -> t <= g l b -> t <= g l e.
Proof.
  intros (s & S0 & S1 & Ex & Ey) A B. rewrite (g_seg l a b e s Ex Ey).
  assert (0 <= (1 - s) * (g l a - t)) by (apply Qmult_le_0_compat; lra).
  assert (0 <= s * (g l b - t)) by (apply Qmult_le_0_compat; lra). lra.
Qed.
Lemma g_le l t a b e : on_seg a b e -> g l a <= t -> g l b <= t -> g l e <= t.
Proof.
  intros (s & S0 & S1 & Ex & Ey) A B. rewrite (g_seg l a b e s Ex Ey).
  assert (0 <= (1 - s) * (t - g l a)) by (apply Qmult_le_0_compat; lra).
  assert (0 <= s * (t - g l b)) by (apply Qmult_le_0_compat; lra). lra.
Qed.
(* an edge that crosses the height y does so between its ends *)
Lemma X_seg a b y : ~ u a y == u b y -> on_seg a b (X a b y, y).
Proof.
  intros U. exists ((y - snd a) / (snd b - snd a)).
  assert (D : (snd a <= y /\ y < snd b) \/ (snd b <= y /\ y < snd a)).
  { destruct (u_cases a y) as [[A UA]|[A UA]], (u_cases b y) as [[B UB]|[B UB]]; rewrite UA, UB in U;
      [exfalso; apply U; reflexivity|left; auto|right; auto|exfalso; apply U; reflexivity]. }
  assert (Z : ~ snd b - snd a == 0) by (destruct D; lra).
  cbn [fst snd]. split; [|split; [|split]].
  - destruct D as [D|D].
    + apply div_nonneg; lra.
    + assert (K : (y - snd a) / (snd b - snd a) == (snd a - y) / (snd a - snd b)) by (field; split; lra).
      rewrite K. apply div_nonneg; lra.
  - destruct D as [D|D].
    + apply Qle_shift_div_r; lra.
    + assert (K : (y - snd a) / (snd b - snd a) == (snd a - y) / (snd a - snd b)) by (field; split; lra).
      rewrite K. apply Qle_shift_div_r; lra.
  - unfold X. field. exact Z.
  - field. exact Z.
Qed.

Lemma Ef_ext f f' y a b : (~ u a y == u b y -> f (X a b y) == f' (X a b y)) -> Ef f y a b == Ef f' y a b.
Proof.
  intros H. unfold Ef. destruct (Qeq_dec (u a y) (u b y)) as [K|K].
  - rewrite K. ring.
  - rewrite (H K). reflexivity.
Qed.
Lemma chain_ext E E' (P : point -> Prop) : (forall a b, P a -> P b -> E a b == E' a b) ->
  forall l o, P o -> Forall P l -> chain E o l == chain E' o l.
Proof.
  intros H l. induction l as [|q t IH]; intros o Po F; [reflexivity|].
  cbn [chain]. inversion F; subst. rewrite H, IH by assumption. reflexivity.
Qed.
Lemma cyc_ext E E' (P : point -> Prop) : (forall a b, P a -> P b -> E a b == E' a b) ->
  forall l, Forall P l -> cyc E l == cyc E' l.
Proof.
  intros H l F. destruct l as [|p t]; [reflexivity|]. unfold cyc. apply (chain_ext E E' P H); [|exact F].
  rewrite Forall_forall in F. apply F. apply last_in. discriminate.
Qed.

Section Half.
Variable l : line.
Variable tol : Q.
Hypothesis tol_pos : 0 <= tol.
Variable inn : point -> bool.
Hypothesis inn_spec : forall p, inn p = true <-> g l p < 0.
Variable cross : point -> point -> option point.
Hypothesis cross_some : forall i1 i2 e, inn i1 <> inn i2 -> cross i1 i2 = Some e ->
  on_seg i2 i1 e /\ g l e == 0.
Hypothesis cross_none : forall i1 i2, inn i1 <> inn i2 -> cross i1 i2 = None ->
  - tol <= g l i1 /\ - tol <= g l i2.

Lemma inn_false p : inn p = false -> 0 <= g l p.
Proof. intros H. destruct (Qlt_le_dec (g l p) 0) as [K|K]; [|exact K]. apply inn_spec in K. congruence. Qed.

Lemma clip_le ps d : Forall (fun p => g l p <= 0) (clipf inn cross (last ps d) ps).
Proof.
  assert (G : forall t c, Forall (fun p => g l p <= 0) (clipf inn cross c t)).
  { induction t as [|c' t IH]; intros c; [constructor|]. cbn [clipf].
    rewrite !Forall_app. split; [|split; [|apply IH]].
    - destruct (xorb (inn c) (inn c')) eqn:Xb; [|constructor].
      destruct (cross c' c) as [e|] eqn:K; [|constructor].
      constructor; [|constructor]. destruct (cross_some c' c e) as [_ Z]; [|exact K|lra].
      destruct (inn c), (inn c'); cbn in Xb; congruence.
    - destruct (inn c') eqn:I; [|constructor]. constructor; [|constructor]. apply inn_spec in I. lra. }
  apply G.
Qed.
Lemma clip_seg_in (P : point -> Prop) : (forall a b e, on_seg a b e -> P a -> P b -> P e) ->
  forall ps d, Forall P ps -> Forall P (clipf inn cross (last ps d) ps).
Proof.
  intros HP ps d F.
  assert (G : forall t c, P c -> Forall P t -> Forall P (clipf inn cross c t)).
  { induction t as [|c' t IH]; intros c Pc Ft; [constructor|]. cbn [clipf]. inversion Ft; subst.
    rewrite !Forall_app. split; [|split; [|apply IH; assumption]].
    - destruct (xorb (inn c) (inn c')) eqn:Xb; [|constructor].
      destruct (cross c' c) as [e|] eqn:K; [|constructor].
      constructor; [|constructor]. destruct (cross_some c' c e) as [Z _]; [|exact K|].
      + destruct (inn c), (inn c'); cbn in Xb; congruence.
      + apply (HP c c' e Z); assumption.
    - destruct (inn c'); constructor; auto. }
  destruct ps as [|p t]; [constructor|]. apply G; [|exact F].
  rewrite Forall_forall in F. apply F, last_in. discriminate.
Qed.
Lemma clip_convex ps d : conv ps -> conv (clipf inn cross (last ps d) ps).
Proof. apply clip_conv. intros i1 i2 e D K. apply (cross_some i1 i2 e D K). Qed.

Lemma clip_same f y ps d : fair (- tol) l y -> mono f -> ps <> [] ->
  cyc (Ef (fun x => f (clamp (- tol) l y x)) y) (clipf inn cross (last ps d) ps)
  == cyc (Ef (fun x => f (clamp (- tol) l y x)) y) ps.
Proof.
  intros Fy M N. set (f' := fun x => f (clamp (- tol) l y x)).
  assert (M' : mono f') by (intros x x' H; apply M, clamp_mono, H).
  apply (clip_cyc (Ef f' y) inn cross) with (W := fun p => - tol <= g l p)
    (v := fun p => u p y * f (edge_of (- tol) l y)).
  - intros i1 i2 e D K. apply Ef_split; [exact M'|]. apply (cross_some i1 i2 e D K).
  - intros a b Wa Wb. unfold Ef. destruct (Qeq_dec (u a y) (u b y)) as [K|K]; [rewrite K; ring|].
    assert (V : f' (X a b y) == f (edge_of (- tol) l y)).
    { unfold f'. apply (mono_eq f _ _ M). apply clamp_out'.
      apply (g_ge l (- tol) a b _ (X_seg a b y K) Wa Wb). }
    rewrite V. ring.
  - intros i1 i2 e D K. destruct (cross_some i1 i2 e D K) as [_ Z]. lra.
  - intros i1 i2 D K. apply (cross_none i1 i2 D K).
  - intros a I. apply inn_false in I. lra.
  - intros a. unfold Ef. ring.
  - exact N.
Qed.

Lemma clip_low f y ps d : fair (- tol) l y -> mono f -> conv ps ->
  cyc (Ef (fun x => f (clamp (- tol) l y x)) y) ps <= cyc (Ef f y) (clipf inn cross (last ps d) ps).
Proof.
  intros Fy M C. destruct ps as [|p t]; [cbn; lra|].
  assert (N : p :: t <> []) by discriminate.
  rewrite <- (clip_same f y (p :: t) d Fy M N).
  set (ps := clipf inn cross (last (p :: t) d) (p :: t)).
  assert (Cp : conv ps) by (apply clip_convex; exact C).
  set (f' := fun x => f x - f (clamp (- tol) l y x)).
  assert (M' : mono f') by (apply clamp_gap; exact M).
  assert (K : 0 <= cyc (Ef f' y) ps).
  { apply cyc_nonneg; [apply Ef_anti; exact M'|apply Ef_tri; exact M'|exact Cp]. }
  assert (S : forall o q, chain (Ef f' y) o q == chain (Ef f y) o q - chain (Ef (fun x => f (clamp (- tol) l y x)) y) o q).
  { intros o q. revert o. induction q as [|r q IH]; intros o; cbn [chain]; [ring|].
    rewrite IH. unfold Ef at 1, f'. unfold Ef. ring. }
  destruct ps as [|p' t']; [cbn; lra|]. unfold cyc in *. rewrite S in K. lra.
Qed.

Lemma clip_up f y ps d : fair 0 l y -> mono f -> conv ps ->
  cyc (Ef f y) (clipf inn cross (last ps d) ps) <= cyc (Ef (fun x => f (clamp 0 l y x)) y) ps.
Proof.
  intros Fy M C. destruct ps as [|p t]; [cbn; lra|].
  assert (N : p :: t <> []) by discriminate.
  set (f' := fun x => f (clamp 0 l y x)).
  assert (M' : mono f') by (intros x x' H; apply M, clamp_mono, H).
  assert (K : cyc (Ef f y) (clipf inn cross (last (p :: t) d) (p :: t))
              == cyc (Ef f' y) (clipf inn cross (last (p :: t) d) (p :: t))).
  { apply (cyc_ext _ _ (fun p => g l p <= 0)); [|apply clip_le].
    intros a b Pa Pb. apply Ef_ext. intros U. unfold f'. symmetry. apply (mono_eq f _ _ M).
    apply clamp_in; [exact Fy|]. apply (g_le l 0 a b _ (X_seg a b y U) Pa Pb). }
  rewrite K.
  rewrite <- (ins_cyc (Ef f' y) inn cross) with (ps := p :: t) (d := d); [|intros i1 i2 e D K'; apply Ef_split; [exact M'|]; apply (cross_some i1 i2 e D K')|exact N].
  apply sub_cyc.
  - apply Ef_anti, M'.
  - apply Ef_tri, M'.
  - apply clip_sub.
  - refine (conv_ins inn cross _ d (p :: t) [] _ C _); [intros i1 i2 e D K'; apply (cross_some i1 i2 e D K')|left; auto].
Qed.
End Half.
