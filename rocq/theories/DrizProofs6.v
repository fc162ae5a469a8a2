(* Proofs about clipping: the polygon computed for one pixel of the destination. *)
From Coq Require Import QArith Qabs Qround Lqa Setoid Morphisms Qminmax.
From Verif Require Import Base DrizModel DrizSpec DrizProofs DrizProofs2 DrizProofs3 DrizProofs4 DrizProofs5.
Local Open Scope Q_scope.

(* --- sections of an intersection of half-planes --- *)
Definition clamps (t : Q) (ls : list line) (y x : Q) : Q := fold_left (fun x l => clamp t l y x) ls x.
Lemma clamps_mono t ls y : mono (clamps t ls y).
Proof.
  induction ls as [|l ls IH]; intros x x' H; [exact H|]. cbn [clamps fold_left].
  apply IH, clamp_mono, H.
Qed.
Definition J (lo hi : Q) (T : Q -> Prop) : Prop :=
  (lo < hi /\ (forall x, lo < x -> x < hi -> T x) /\ (forall x, T x -> lo <= x /\ x <= hi)) \/
  (lo == hi /\ exists p, forall x, T x -> x == p).
Lemma hs_pos a b c t y x : 0 < a -> (x < (t - b * y - c) / a <-> a * x + b * y + c < t).
Proof.
  intros P. assert (K : a * ((t - b * y - c) / a) == t - b * y - c) by (field; lra).
  split; intros H.
  - assert (a * x < a * ((t - b * y - c) / a)) by (apply Qmult_lt_l; assumption). lra.
  - apply (Qmult_lt_l _ _ a P). lra.
Qed.
Lemma hs_neg a b c t y x : a < 0 -> ((t - b * y - c) / a < x <-> a * x + b * y + c < t).
Proof.
  intros P. assert (K : a * ((t - b * y - c) / a) == t - b * y - c) by (field; lra).
  assert (P' : 0 < - a) by lra.
  split; intros H.
  - assert ((- a) * ((t - b * y - c) / a) < (- a) * x) by (apply Qmult_lt_l; assumption). lra.
  - apply (Qmult_lt_l _ _ (- a) P'). lra.
Qed.
Lemma J_step t l y lo hi T : J lo hi T ->
  J (clamp t l y lo) (clamp t l y hi) (fun x => T x /\ g l (x, y) < t).
Proof.
  intros [(L & T1 & T2)|(L & p & Tp)].
  2:{ right. split; [apply (mono_eq _ _ _ (clamp_mono t l y) L)|]. exists p. intros x [Tx _]. auto. }
  destruct l as [[a b] c]. unfold clamp, g. cbn [fst snd].
  destruct (Qlt_le_dec 0 a) as [P|P].
  - set (h := (t - b * y - c) / a).
    assert (HS : forall x, x < h <-> a * x + b * y + c < t) by (intros x; apply hs_pos; exact P).
    destruct (Qlt_le_dec lo h) as [A|A]; destruct (Qlt_le_dec hi h) as [B|B].
    + left. split; [exact L|]. split.
      * intros x X1 X2. split; [auto|]. apply HS. lra.
      * intros x [Tx _]. auto.
    + left. split; [exact A|]. split.
      * intros x X1 X2. split; [apply T1; lra|]. apply HS. lra.
      * intros x [Tx G]. apply HS in G. destruct (T2 x Tx). lra.
    + lra.
    + right. split; [reflexivity|]. exists lo. intros x [Tx G]. apply HS in G. destruct (T2 x Tx). lra.
  - destruct (Qlt_le_dec a 0) as [N|N].
    + set (h := (t - b * y - c) / a).
      assert (HS : forall x, h < x <-> a * x + b * y + c < t) by (intros x; apply hs_neg; exact N).
      destruct (Qlt_le_dec lo h) as [A|A]; destruct (Qlt_le_dec hi h) as [B|B].
      * right. split; [reflexivity|]. exists lo. intros x [Tx G]. apply HS in G. destruct (T2 x Tx). lra.
      * destruct (Qlt_le_dec h hi) as [D|D].
        -- left. split; [exact D|]. split.
           ++ intros x X1 X2. split; [apply T1; lra|]. apply HS. lra.
           ++ intros x [Tx G]. apply HS in G. destruct (T2 x Tx). lra.
        -- right. split; [lra|]. exists hi. intros x [Tx G]. apply HS in G. destruct (T2 x Tx). lra.
      * lra.
      * left. split; [exact L|]. split.
        -- intros x X1 X2. split; [auto|]. apply HS. lra.
        -- intros x [Tx _]. auto.
    + assert (Z : a == 0) by lra.
      destruct (Qlt_le_dec (b * y + c) t) as [A|A].
      * left. split; [exact L|]. split.
        -- intros x X1 X2. split; [auto|]. rewrite Z. lra.
        -- intros x [Tx _]. auto.
      * right. split; [reflexivity|]. exists 0. intros x [_ G]. rewrite Z in G. lra.
Qed.
Lemma J_steps t ls y : forall lo hi T, J lo hi T ->
  J (clamps t ls y lo) (clamps t ls y hi) (fun x => T x /\ forall l, In l ls -> g l (x, y) < t).
Proof.
  induction ls as [|l ls IH]; intros lo hi T H.
  - cbn. destruct H as [(L & T1 & T2)|(L & p & Tp)].
    + left. split; [exact L|]. split; [intros x X1 X2; split; [auto|intros ? []]|intros x [Tx _]; auto].
    + right. split; [exact L|]. exists p. intros x [Tx _]. auto.
  - cbn [clamps fold_left].
    destruct (IH _ _ _ (J_step t l y lo hi T H)) as [(L & T1 & T2)|(L & p & Tp)].
    + left. split; [exact L|]. split.
      * intros x X1 X2. destruct (T1 x X1 X2) as [[Tx G] K]. split; [exact Tx|]. intros l' [<-|I]; auto.
      * intros x [Tx K]. apply T2. split; [split; [exact Tx|apply K; left; reflexivity]|]. intros l' I. apply K. right; exact I.
    + right. split; [exact L|]. exists p. intros x [Tx K]. apply Tp.
      split; [split; [exact Tx|apply K; left; reflexivity]|]. intros l' I. apply K. right; exact I.
Qed.
Lemma J_section lo hi S y : J lo hi (fun x => S x y) -> section S y (hi - lo).
Proof.
  intros [(L & T1 & T2)|(L & p & Tp)].
  - exists lo, hi. split; [lra|]. split; [reflexivity|]. auto.
  - exists p, p. split; [lra|]. split; [lra|]. split; [intros x X1 X2; lra|].
    intros x Sx. specialize (Tp x Sx). lra.
Qed.
Lemma section_le S T y a b : section S y a -> section T y b -> (forall x, S x y -> T x y) -> a <= b.
Proof.
  intros (a1 & b1 & L1 & E1 & I1 & O1) (a2 & b2 & L2 & E2 & I2 & O2) H.
  rewrite E1, E2. destruct (Qlt_le_dec a1 b1) as [K|K]; [|lra].
  (* the open interval (a1, b1) is in [a2, b2] *)
  assert (Low : a2 <= a1).
  { destruct (Qlt_le_dec a1 a2) as [Q1|Q1]; [exfalso|exact Q1].
    set (m := if Qlt_le_dec a2 b1 then a2 else b1).
    assert (M : a1 < m /\ m <= b1 /\ m <= a2) by (unfold m; destruct (Qlt_le_dec a2 b1); lra).
    assert (M1 : a1 < (a1 + m) / 2) by (apply Qlt_shift_div_l; lra).
    assert (M2 : (a1 + m) / 2 < m) by (apply Qlt_shift_div_r; lra).
    destruct (O2 ((a1 + m) / 2)); [apply H, I1; lra|]. lra. }
  assert (High : b1 <= b2).
  { destruct (Qlt_le_dec b2 b1) as [Q1|Q1]; [exfalso|exact Q1].
    set (m := if Qlt_le_dec a1 b2 then b2 else a1).
    assert (M : m < b1 /\ a1 <= m /\ b2 <= m) by (unfold m; destruct (Qlt_le_dec a1 b2); lra).
    assert (M1 : m < (m + b1) / 2) by (apply Qlt_shift_div_l; lra).
    assert (M2 : (m + b1) / 2 < b1) by (apply Qlt_shift_div_r; lra).
    destruct (O2 ((m + b1) / 2)); [apply H, I1; lra|]. lra. }
  lra.
Qed.

(* --- a sequence of cuts --- *)
Section Run.
Variable K : Type.
Variable ln : K -> line.
Variable inn : K -> point -> bool.
Variable cr : K -> point -> point -> option point.
Variable tol : Q.
Hypothesis tol_pos : 0 <= tol.
Hypothesis inn_spec : forall k p, inn k p = true <-> g (ln k) p < 0.
Hypothesis cr_some : forall k i1 i2 e, inn k i1 <> inn k i2 -> cr k i1 i2 = Some e ->
  on_seg i2 i1 e /\ g (ln k) e == 0.
Hypothesis cr_none : forall k i1 i2, inn k i1 <> inn k i2 -> cr k i1 i2 = None ->
  - tol <= g (ln k) i1 /\ - tol <= g (ln k) i2.

Definition clip1 (k : K) (ps : list point) : list point :=
  clipf (inn k) (cr k) (last ps (0, 0)) ps.
Fixpoint run (ks : list K) (ps : list point) : list point :=
  match ks with [] => ps | k :: t => run t (clip1 k ps) end.

Lemma run_conv ks : forall ps, conv ps -> conv (run ks ps).
Proof.
  induction ks as [|k t IH]; intros ps C; [exact C|]. cbn [run]. apply IH. unfold clip1.
  eapply clip_convex; [apply cr_some|exact C].
Qed.
Lemma run_in (P : point -> Prop) : (forall a b e, on_seg a b e -> P a -> P b -> P e) ->
  forall ks ps, Forall P ps -> Forall P (run ks ps).
Proof.
  intros HP ks. induction ks as [|k t IH]; intros ps F; [exact F|]. cbn [run]. apply IH. unfold clip1.
  eapply clip_seg_in; [apply cr_some|exact HP|exact F].
Qed.
Lemma run_g ks : forall ps l, In l (map ln ks) -> Forall (fun p => g l p <= 0) (run ks ps).
Proof.
  induction ks as [|k t IH]; intros ps l I; [destruct I|]. cbn [run]. destruct I as [<-|I]; [|apply IH, I].
  apply run_in; [intros a b e S A B; apply (g_le _ 0 a b e S A B)|].
  unfold clip1. apply (clip_le _ (inn k)); [apply inn_spec|apply cr_some].
Qed.
Lemma run_nil ks : run ks [] = [].
Proof. induction ks as [|k t IH]; [reflexivity|exact IH]. Qed.
Lemma clip_none k ps : (forall p, inn k p = false) -> clip1 k ps = [].
Proof.
  intros H. unfold clip1. generalize (last ps (0, 0)).
  induction ps as [|p t IH]; intros c; [reflexivity|]. cbn [clipf]. rewrite !H. cbn. apply IH.
Qed.
(* a line without direction cuts everything off *)
Lemma run_degenerate ks : forall ps, Exists (fun k => forall p, g (ln k) p == 0) ks -> run ks ps = [].
Proof.
  induction ks as [|k t IH]; intros ps E; [inversion E|]. cbn [run].
  inversion E as [? ? Z|? ? Z]; subst; [|apply IH, Z].
  rewrite clip_none; [apply run_nil|]. intros p. destruct (inn k p) eqn:I; [|reflexivity].
  apply inn_spec in I. specialize (Z p). lra.
Qed.
Lemma run_low y ks : forall ps f, Forall (fun l => fair (- tol) l y) (map ln ks) -> mono f -> conv ps ->
  cyc (Ef (fun x => f (clamps (- tol) (map ln ks) y x)) y) ps <= cyc (Ef f y) (run ks ps).
Proof.
  induction ks as [|k t IH]; intros ps f F M C; [apply Qle_refl|].
  cbn [map] in *. inversion F as [|? ? F1 F2]; subst. cbn [run].
  eapply Qle_trans; [|apply IH; [exact F2|exact M|]].
  - unfold clip1. set (f' := fun x => f (clamps (- tol) (map ln t) y x)).
    apply (clip_low (ln k) tol tol_pos (inn k) (inn_spec k) (cr k)
             (cr_some k) (cr_none k) f' y ps (0, 0) F1); [|exact C].
    intros x x' H. apply M, clamps_mono, H.
  - unfold clip1. eapply clip_convex; [apply cr_some|exact C].
Qed.
Lemma run_up y ks : forall ps f, Forall (fun l => fair 0 l y) (map ln ks) -> mono f -> conv ps ->
  cyc (Ef f y) (run ks ps) <= cyc (Ef (fun x => f (clamps 0 (map ln ks) y x)) y) ps.
Proof.
  induction ks as [|k t IH]; intros ps f F M C; [apply Qle_refl|].
  cbn [map] in *. inversion F as [|? ? F1 F2]; subst. cbn [run].
  eapply Qle_trans; [apply IH; [exact F2|exact M|]|].
  - unfold clip1. eapply clip_convex; [apply cr_some|exact C].
  - unfold clip1. set (f' := fun x => f (clamps 0 (map ln t) y x)).
    apply (clip_up (ln k) (inn k) (inn_spec k) (cr k)
             (cr_some k) f' y ps (0, 0) F1); [|exact C].
    intros x x' H. apply M, clamps_mono, H.
Qed.
End Run.

(* --- a rectangle --- *)
Definition rect (x0 y0 x1 y1 : Q) : list point := [(x0, y0); (x1, y0); (x1, y1); (x0, y1)].
Lemma conv4 a b c d : convex4 a b c d -> conv [a; b; c; d].
Proof.
  intros (A & B & C & D) p q r H.
  repeat match goal with K : subl _ (_ :: _) |- _ => inversion K; clear K; subst | K : subl (_ :: _) [] |- _ => inversion K end;
    assumption.
Qed.
Lemma rect_conv x0 y0 x1 y1 : x0 <= x1 -> y0 <= y1 -> conv (rect x0 y0 x1 y1).
Proof.
  intros Lx Ly. apply conv4. unfold convex4, side. cbn [fst snd].
  assert (0 <= (x1 - x0) * (y1 - y0)) by (apply Qmult_le_0_compat; lra). repeat split; lra.
Qed.
Lemma rect_cyc f x0 y0 x1 y1 y : mono f -> y0 < y -> y < y1 -> cyc (Ef f y) (rect x0 y0 x1 y1) == f x1 - f x0.
Proof.
  intros M Y0 Y1. unfold rect, cyc. cbn [last chain]. unfold Ef.
  rewrite (u_lo (x0, y0)), (u_lo (x1, y0)), (u_hi (x1, y1)), (u_hi (x0, y1)) by (cbn; lra).
  assert (K0 : X (x0, y1) (x0, y0) y == x0) by (unfold X; cbn [fst snd]; field; lra).
  assert (K1 : X (x1, y0) (x1, y1) y == x1) by (unfold X; cbn [fst snd]; field; lra).
  rewrite (mono_eq f _ _ M K0), (mono_eq f _ _ M K1). ring.
Qed.
Lemma seg_high a b e y0 y1 : on_seg a b e -> high y0 y1 a -> high y0 y1 b -> high y0 y1 e.
Proof.
  intros (s & S0 & S1 & Ex & Ey) [A1 A2] [B1 B2]. unfold high. rewrite Ey.
  assert (0 <= (1 - s) * (snd a - y0)) by (apply Qmult_le_0_compat; lra).
  assert (0 <= s * (snd b - y0)) by (apply Qmult_le_0_compat; lra).
  assert (0 <= (1 - s) * (y1 - snd a)) by (apply Qmult_le_0_compat; lra).
  assert (0 <= s * (y1 - snd b)) by (apply Qmult_le_0_compat; lra). lra.
Qed.

(* --- the heights to avoid --- *)
Definition heights (t : Q) (ls : list line) : list Q :=
  flat_map (fun '(a, b, c) => if Qeq_dec b 0 then [] else [(t - c) / b]) ls.
Definition proper (ls : list line) : Prop := Forall (fun '(a, b, c) => ~ (a == 0 /\ b == 0)) ls.
Lemma heights_fair t ls y : proper ls -> notin y (heights t ls) -> Forall (fun l => fair t l y) ls.
Proof.
  induction ls as [|[[a b] c] ls IH]; intros P N; [constructor|].
  inversion P as [|? ? P1 P2]; subst. unfold heights in N. cbn [flat_map] in N. unfold notin in N.
  rewrite Forall_app in N. destruct N as [N1 N2]. constructor; [|apply IH; assumption].
  intros A E. destruct (Qeq_dec b 0) as [B|B]; [apply P1; auto|].
  inversion N1 as [|? ? N3 _]; subst. apply N3. rewrite <- E. field. exact B.
Qed.
