(* Proofs about clipping: the horizontal sections of polygons, seen through their edges. *)
From Coq Require Import QArith Qabs Qround Lqa Setoid Morphisms Qminmax.
From Verif Require Import Base DrizModel DrizSpec DrizProofs DrizProofs2.
Local Open Scope Q_scope.

Definition u (p : point) (y : Q) : Q := if Qle_bool (snd p) y then 1 else 0.
Definition X (a b : point) (y : Q) : Q := fst a + (y - snd a) * ((fst b - fst a) / (snd b - snd a)).
Definition Ef (f : Q -> Q) (y : Q) (a b : point) : Q := (u a y - u b y) * f (X a b y).
Definition mono (f : Q -> Q) : Prop := forall x x', x <= x' -> f x <= f x'.

Lemma u_lo p y : snd p <= y -> u p y = 1.
Proof. intros H. unfold u. apply Qle_bool_iff in H. rewrite H. reflexivity. Qed.
Lemma u_hi p y : y < snd p -> u p y = 0.
Proof.
  intros H. unfold u. destruct (Qle_bool (snd p) y) eqn:K; [|reflexivity].
  apply Qle_bool_iff in K. lra.
Qed.
Lemma u_cases p y : (snd p <= y /\ u p y = 1) \/ (y < snd p /\ u p y = 0).
Proof.
  destruct (Qlt_le_dec y (snd p)); [right|left]; split; try assumption; [apply u_hi|apply u_lo]; assumption.
Qed.
Lemma mono_eq f x x' : mono f -> x == x' -> f x == f x'.
Proof. intros M H. apply Qle_antisym; apply M; lra. Qed.

Lemma X_sym a b y : ~ snd a == snd b -> X a b y == X b a y.
Proof. intros H. unfold X. field. split; lra. Qed.
Lemma Ef_anti f y : mono f -> forall a b, Ef f y a b == - Ef f y b a.
Proof.
  intros M a b. unfold Ef.
  destruct (u_cases a y) as [[A ->]|[A ->]], (u_cases b y) as [[B ->]|[B ->]]; try ring;
    rewrite (mono_eq f _ _ M (X_sym a b y ltac:(lra))); ring.
Qed.

Lemma div_nonneg a b : 0 <= a -> 0 < b -> 0 <= a / b.
Proof. intros H K. apply Qle_shift_div_l; [exact K|]. lra. Qed.
Lemma X_up a b c y : snd a <= y -> y < snd b -> y < snd c -> 0 <= side a b c -> X a c y <= X a b y.
Proof.
  intros A B C S.
  assert (K : X a b y - X a c y == (y - snd a) * side a b c / ((snd b - snd a) * (snd c - snd a))).
  { unfold X, side. field. split; lra. }
  assert (0 <= (y - snd a) * side a b c / ((snd b - snd a) * (snd c - snd a))).
  { apply div_nonneg; [apply Qmult_le_0_compat; lra|]. apply Qmult_lt_0_compat; lra. }
  lra.
Qed.
Lemma X_dn a b c y : y < snd a -> snd b <= y -> snd c <= y -> 0 <= side a b c -> X a b y <= X a c y.
Proof.
  intros A B C S.
  assert (K : X a c y - X a b y == (snd a - y) * side a b c / ((snd a - snd b) * (snd a - snd c))).
  { unfold X, side. field. split; lra. }
  assert (0 <= (snd a - y) * side a b c / ((snd a - snd b) * (snd a - snd c))).
  { apply div_nonneg; [apply Qmult_le_0_compat; lra|]. apply Qmult_lt_0_compat; lra. }
  lra.
Qed.
Lemma Ef_tri f y : mono f -> forall a b c, 0 <= side a b c ->
  0 <= Ef f y a b + Ef f y b c + Ef f y c a.
Proof.
  intros M.
  (* a alone on its side *)
  assert (T : forall a b c, 0 <= side a b c -> u b y = u c y ->
            0 <= Ef f y a b + Ef f y b c + Ef f y c a).
  { intros a b c S U.
    assert (Z : Ef f y b c == 0) by (unfold Ef; rewrite U; ring).
    rewrite Z, (Ef_anti f y M c a). unfold Ef. rewrite U.
    destruct (u_cases a y) as [[A ->]|[A ->]], (u_cases c y) as [[C UC]|[C UC]]; rewrite UC in *; try lra.
    - assert (B : y < snd b). { destruct (u_cases b y) as [[B UB]|[B UB]]; [rewrite UB in U; discriminate|exact B]. }
      assert (K := M _ _ (X_up a b c y A B C S)). lra.
    - assert (B : snd b <= y). { destruct (u_cases b y) as [[B UB]|[B UB]]; [exact B|rewrite UB in U; discriminate]. }
      assert (K := M _ _ (X_dn a b c y A B C S)). lra. }
  intros a b c S.
  assert (D : u b y = u c y \/ u c y = u a y \/ u a y = u b y).
  { unfold u. destruct (Qle_bool (snd a) y), (Qle_bool (snd b) y), (Qle_bool (snd c) y); auto. }
  destruct D as [D|[D|D]].
  - apply T; assumption.
  - assert (K := T b c a). rewrite side_rot in S. specialize (K S D). lra.
  - assert (K := T c a b). rewrite side_rot, side_rot in S. specialize (K S D). lra.
Qed.

Lemma Ef_split f y a b e : mono f -> on_seg a b e -> Ef f y a b == Ef f y a e + Ef f y e b.
Proof.
  intros M (s & S0 & S1 & Ex & Ey). unfold Ef.
  destruct (u_cases a y) as [[A ->]|[A ->]], (u_cases b y) as [[B ->]|[B ->]],
    (u_cases e y) as [[F ->]|[F ->]]; try ring.
  - exfalso. assert (0 <= (1 - s) * (y - snd a)) by (apply Qmult_le_0_compat; lra).
    assert (0 <= s * (y - snd b)) by (apply Qmult_le_0_compat; lra). lra.
  - assert (K : X e b y == X a b y).
    { unfold X. rewrite Ex, Ey. field.
      split; [intros Z; lra|]. intros Z. lra. }
    rewrite (mono_eq f _ _ M K). ring.
  - assert (K : X a e y == X a b y).
    { unfold X. rewrite Ex, Ey. field.
      split; [intros Z; lra|]. intros Z. lra. }
    rewrite (mono_eq f _ _ M K). ring.
  - assert (K : X a e y == X a b y).
    { unfold X. rewrite Ex, Ey. field.
      split; [intros Z; lra|]. intros Z. lra. }
    rewrite (mono_eq f _ _ M K). ring.
  - assert (K : X e b y == X a b y).
    { unfold X. rewrite Ex, Ey. field.
      split; [intros Z; lra|]. intros Z. lra. }
    rewrite (mono_eq f _ _ M K). ring.
  - exfalso. assert (0 <= (1 - s) * (snd a - y)) by (apply Qmult_le_0_compat; lra).
    assert (0 <= s * (snd b - y)) by (apply Qmult_le_0_compat; lra).
    assert (D : s == 0 \/ 0 < s) by (destruct (Qlt_le_dec 0 s); [right|left]; lra).
    destruct D as [D|D]; [rewrite D in *; lra|].
    assert (0 < s * (snd b - y)) by (apply Qmult_lt_0_compat; lra). lra.
Qed.
