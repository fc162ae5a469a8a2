(* Proofs about areas: strips, and the area of a polygon as the sum of its strips. *)
From Coq Require Import QArith Qabs Qround Lqa Setoid Morphisms Qminmax.
From Verif Require Import Base DrizModel DrizSpec DrizProofs DrizProofs2 DrizProofs3 DrizProofs4.
Local Open Scope Q_scope.

Inductive strips (P : Q -> Q -> Prop) : Q -> Q -> Q -> Prop :=
| st_strip a b m k : a <= b -> (forall y, a < y -> y < b -> P y (m * y + k)) ->
    strips P a b ((b - a) * (m * ((a + b) / 2) + k))
| st_join a b c A B : strips P a b A -> strips P b c B -> strips P a c (A + B)
| st_eq a b A a' b' A' : a == a' -> b == b' -> A == A' -> strips P a b A -> strips P a' b' A'.

Lemma area_strips S a b A : area S a b A <-> strips (section S) a b A.
Proof.
  split; intros H; induction H.
  - apply st_strip; assumption.
  - eapply st_join; eassumption.
  - eapply st_eq; eassumption.
  - apply area_strip; assumption.
  - eapply area_join; eassumption.
  - eapply area_eq; eassumption.
Qed.
Lemma strips_le P a b A : strips P a b A -> a <= b.
Proof. intros H; induction H; lra. Qed.
Lemma strips_split P a c A : strips P a c A -> forall b, a <= b -> b <= c ->
  exists A1 A2, strips P a b A1 /\ strips P b c A2 /\ A == A1 + A2.
Proof.
  intros H. induction H as [a c m k L H|a b c A B H1 IH1 H2 IH2|a c A a' c' A' Ea Ec EA H IH]; intros z Lz Uz.
  - exists ((z - a) * (m * ((a + z) / 2) + k)), ((c - z) * (m * ((z + c) / 2) + k)).
    split; [|split].
    + apply st_strip; [assumption|]. intros y Y1 Y2. apply H; lra.
    + apply st_strip; [assumption|]. intros y Y1 Y2. apply H; lra.
    + field.
  - pose proof (strips_le _ _ _ _ H1). pose proof (strips_le _ _ _ _ H2).
    destruct (Qlt_le_dec z b) as [Z|Z].
    + destruct (IH1 z) as (A1 & A2 & S1 & S2 & EA); [lra|lra|].
      exists A1, (A2 + B). split; [exact S1|]. split; [eapply st_join; eassumption|]. rewrite EA. ring.
    + destruct (IH2 z) as (A1 & A2 & S1 & S2 & EA); [lra|lra|].
      exists (A + A1), A2. split; [eapply st_join; eassumption|]. split; [exact S2|]. rewrite EA. ring.
  - destruct (IH z) as (A1 & A2 & S1 & S2 & EA'); [lra|lra|].
    exists A1, A2. split; [|split].
    + eapply st_eq; [exact Ea|reflexivity|reflexivity|exact S1].
    + eapply st_eq; [reflexivity|exact Ec|reflexivity|exact S2].
    + lra.
Qed.
(* induction on a list of exceptional heights *)
Lemma strips_mono0 P P' a b A : strips P a b A -> forall B, strips P' a b B ->
  (forall y len len', a < y -> y < b -> P y len -> P' y len' -> len <= len') -> A <= B.
Proof.
  intros H. induction H as [a b m k L H|a b c A1 A2 H1 IH1 H2 IH2|a c A a' c' A' Ea Ec EA H IH]; intros B HB Le.
  - revert m k H. induction HB as [a b m' k' L' H'|a b c B1 B2 H1 IH1 H2 IH2|a c B a' c' B' Ea Ec EA H' IH]; intros m k H.
    + destruct (Qlt_le_dec a b) as [Z|Z].
      * apply Qmult_le_l; [lra|].
        assert (M1 : a < (a + b) / 2) by (apply Qlt_shift_div_l; lra).
        assert (M2 : (a + b) / 2 < b) by (apply Qlt_shift_div_r; lra).
        apply (Le ((a + b) / 2)); auto.
      * assert (E : b - a == 0) by lra. rewrite E. lra.
    + pose proof (strips_le _ _ _ _ H1). pose proof (strips_le _ _ _ _ H2).
      assert (E : (c - a) * (m * ((a + c) / 2) + k) ==
        (b - a) * (m * ((a + b) / 2) + k) + (c - b) * (m * ((b + c) / 2) + k)) by field.
      rewrite E. apply Qplus_le_compat.
      * apply IH1; [assumption|intros y v v' Y1 Y2 K1 K2; apply (Le y v v'); auto; lra|intros y Y1 Y2; apply H; lra].
      * apply IH2; [assumption|intros y v v' Y1 Y2 K1 K2; apply (Le y v v'); auto; lra|intros y Y1 Y2; apply H; lra].
    + rewrite <- EA. assert (E : (c' - a') * (m * ((a' + c') / 2) + k) == (c - a) * (m * ((a + c) / 2) + k)).
      { rewrite Ea, Ec. reflexivity. }
      rewrite E. apply IH; [lra|intros y v v' Y1 Y2 K1 K2; apply (Le y v v'); auto; lra|intros y Y1 Y2; apply H; lra].
  - pose proof (strips_le _ _ _ _ H1). pose proof (strips_le _ _ _ _ H2).
    destruct (strips_split _ _ _ _ HB b) as (B1 & B2 & S1 & S2 & E); [assumption|assumption|].
    rewrite E. apply Qplus_le_compat; [apply IH1; [exact S1|]|apply IH2; [exact S2|]]; intros y v v' Y1 Y2 K1 K2; apply (Le y v v'); auto; lra.
  - rewrite <- EA. apply IH.
    + eapply st_eq; [symmetry; exact Ea|symmetry; exact Ec|reflexivity|exact HB].
    + intros y v v' Y1 Y2 K1 K2; apply (Le y v v'); auto; lra.
Qed.
Definition notin (y : Q) (bad : list Q) : Prop := Forall (fun z => ~ y == z) bad.
Lemma strips_mono P P' bad : forall a b A B, strips P a b A -> strips P' a b B ->
  (forall y len len', a < y -> y < b -> notin y bad -> P y len -> P' y len' -> len <= len') -> A <= B.
Proof.
  induction bad as [|z bad IH]; intros a b A B HA HB Le.
  - eapply strips_mono0; [exact HA|exact HB|]. intros y v v' Y1 Y2 K1 K2; apply (Le y v v'); auto. constructor.
  - destruct (Qlt_le_dec a z) as [Z1|Z1]; [destruct (Qlt_le_dec z b) as [Z2|Z2]|].
    + destruct (strips_split _ _ _ _ HA z) as (A1 & A2 & SA1 & SA2 & EA); [lra|lra|].
      destruct (strips_split _ _ _ _ HB z) as (B1 & B2 & SB1 & SB2 & EB); [lra|lra|].
      rewrite EA, EB. apply Qplus_le_compat.
      * apply (IH a z); [assumption|assumption|]. intros y v v' Y1 Y2 N K1 K2; apply (Le y v v'); auto; [lra|]. constructor; [lra|assumption].
      * apply (IH z b); [assumption|assumption|]. intros y v v' Y1 Y2 N K1 K2; apply (Le y v v'); auto; [lra|]. constructor; [lra|assumption].
    + apply (IH a b); [assumption|assumption|]. intros y v v' Y1 Y2 N K1 K2; apply (Le y v v'); auto. constructor; [lra|assumption].
    + apply (IH a b); [assumption|assumption|]. intros y v v' Y1 Y2 N K1 K2; apply (Le y v v'); auto. constructor; [lra|assumption].
Qed.
Lemma strips_map (P P' : Q -> Q -> Prop) bad : forall a b A, strips P a b A ->
  (forall y len, a < y -> y < b -> notin y bad -> P y len -> P' y len) -> strips P' a b A.
Proof.
  induction bad as [|z bad IH]; intros a b A HA K.
  - induction HA as [a b m k L H|a b c A1 A2 H1 IH1 H2 IH2|a c A a' c' A' Ea Ec EA H IH].
    + apply st_strip; [assumption|]. intros; apply K; auto. constructor.
    + pose proof (strips_le _ _ _ _ H1). pose proof (strips_le _ _ _ _ H2).
      eapply st_join; [apply IH1|apply IH2]; intros; apply K; auto; lra.
    + eapply st_eq; [eassumption|eassumption|eassumption|]. apply IH. intros; apply K; auto; lra.
  - destruct (Qlt_le_dec a z) as [Z1|Z1]; [destruct (Qlt_le_dec z b) as [Z2|Z2]|].
    + destruct (strips_split _ _ _ _ HA z) as (A1 & A2 & SA1 & SA2 & EA); [lra|lra|].
      eapply st_eq; [reflexivity|reflexivity|symmetry; exact EA|].
      apply st_join with z.
      * apply IH; [assumption|]. intros; apply K; auto; [lra|]. constructor; [lra|assumption].
      * apply IH; [assumption|]. intros; apply K; auto; [lra|]. constructor; [lra|assumption].
    + apply IH; [assumption|]. intros; apply K; auto. constructor; [lra|assumption].
    + apply IH; [assumption|]. intros; apply K; auto. constructor; [lra|assumption].
Qed.

(* the integral of a function *)
Definition integral (f : Q -> Q) : Q -> Q -> Q -> Prop := strips (fun y len => f y == len).
Lemma integral_plus f f' a b I : integral f a b I -> forall I', integral f' a b I' ->
  integral (fun y => f y + f' y) a b (I + I').
Proof.
  intros H. induction H as [a b m k L H|a b c A1 A2 H1 IH1 H2 IH2|a c A a' c' A' Ea Ec EA H IH]; intros I' HB.
  - revert m k H. induction HB as [a b m' k' L' H'|a b c B1 B2 H1 IH1 H2 IH2|a c B a' c' B' Ea Ec EA H' IH]; intros m k H.
    + eapply st_eq; [reflexivity|reflexivity| |apply (st_strip _ a b (m + m') (k + k') L)].
      * field.
      * intros y Y1 Y2. cbn beta. rewrite H, H' by assumption. ring.
    + pose proof (strips_le _ _ _ _ H1). pose proof (strips_le _ _ _ _ H2).
      eapply st_eq; [reflexivity|reflexivity| |eapply st_join; [eapply IH1|eapply IH2]]; try assumption;
        [|intros y Y1 Y2; apply H; lra|intros y Y1 Y2; apply H; lra].
      field.
    + eapply st_eq; [exact Ea|exact Ec| |eapply IH]; [|lra|intros y Y1 Y2; apply H; lra].
      rewrite EA, Ea, Ec. reflexivity.
  - pose proof (strips_le _ _ _ _ H1). pose proof (strips_le _ _ _ _ H2).
    destruct (strips_split _ _ _ _ HB b) as (B1 & B2 & S1 & S2 & E); [assumption|assumption|].
    eapply st_eq; [reflexivity|reflexivity| |eapply st_join; [apply IH1, S1|apply IH2, S2]]. lra.
  - eapply st_eq; [exact Ea|exact Ec| |apply IH; eapply st_eq; [symmetry; exact Ea|symmetry; exact Ec|reflexivity|exact HB]].
    lra.
Qed.
Lemma integral_ext f f' a b I : integral f a b I -> (forall y, a < y -> y < b -> f y == f' y) -> integral f' a b I.
Proof.
  intros H K. apply (strips_map _ _ [] a b I H). intros y len Y1 Y2 _ E. rewrite <- K by assumption. exact E.
Qed.
Lemma integral_zero a b : a <= b -> integral (fun _ => 0) a b 0.
Proof.
  intros L. eapply st_eq; [reflexivity|reflexivity| |apply (st_strip _ a b 0 0 L)].
  - ring.
  - intros y _ _. ring.
Qed.
Lemma integral_unique f a b I I' : integral f a b I -> integral f a b I' -> I == I'.
Proof.
  intros H K. apply Qle_antisym; eapply strips_mono0; try eassumption; cbn beta; intros; lra.
Qed.

(* an edge *)
Definition idq (x : Q) : Q := x.
Lemma mono_id : mono idq.
Proof. intros x x' H. exact H. Qed.
Definition trap (p q : point) : Q := (snd q - snd p) * (fst p + fst q) / 2.
Lemma integral_edge p q a b : a <= snd p -> snd p <= b -> a <= snd q -> snd q <= b ->
  integral (fun y => Ef idq y p q) a b (trap p q).
Proof.
  intros P1 P2 Q1 Q2.
  assert (Zero : forall c d, c <= d -> (forall y, c < y -> y < d -> u p y = u q y) -> integral (fun y => Ef idq y p q) c d 0).
  { intros c d L K. apply (integral_ext (fun _ => 0)); [apply integral_zero, L|].
    intros y Y1 Y2. unfold Ef. rewrite K by assumption. ring. }
  destruct (Qlt_le_dec (snd p) (snd q)) as [L|L].
  - assert (S1 : integral (fun y => Ef idq y p q) a (snd p) 0).
    { apply Zero; [assumption|]. intros y Y1 Y2. rewrite !u_hi by lra. reflexivity. }
    assert (S3 : integral (fun y => Ef idq y p q) (snd q) b 0).
    { apply Zero; [assumption|]. intros y Y1 Y2. rewrite !u_lo by lra. reflexivity. }
    eapply st_eq; [reflexivity|reflexivity| |eapply st_join; [exact S1|eapply st_join; [|exact S3]]].
    2:{ apply (st_strip _ (snd p) (snd q) ((fst q - fst p) / (snd q - snd p)) (fst p - snd p * ((fst q - fst p) / (snd q - snd p)))); [lra|].
        intros y Y1 Y2. unfold Ef, idq, X. rewrite (u_lo p), (u_hi q) by lra. field. lra. }
    unfold trap. field. lra.
  - destruct (Qlt_le_dec (snd q) (snd p)) as [L'|L'].
    + assert (S1 : integral (fun y => Ef idq y p q) a (snd q) 0).
      { apply Zero; [assumption|]. intros y Y1 Y2. rewrite !u_hi by lra. reflexivity. }
      assert (S3 : integral (fun y => Ef idq y p q) (snd p) b 0).
      { apply Zero; [assumption|]. intros y Y1 Y2. rewrite !u_lo by lra. reflexivity. }
      eapply st_eq; [reflexivity|reflexivity| |eapply st_join; [exact S1|eapply st_join; [|exact S3]]].
      2:{ apply (st_strip _ (snd q) (snd p) (- ((fst q - fst p) / (snd q - snd p))) (- (fst p - snd p * ((fst q - fst p) / (snd q - snd p))))); [lra|].
          intros y Y1 Y2. unfold Ef, idq, X. rewrite (u_lo q), (u_hi p) by lra. field. lra. }
      unfold trap. field. lra.
    + assert (E : snd p == snd q) by lra.
      eapply st_eq; [reflexivity|reflexivity| |apply Zero; [lra|]].
      * unfold trap. rewrite E. field.
      * intros y _ _. unfold u. rewrite E. reflexivity.
Qed.
Definition high (a b : Q) (p : point) : Prop := a <= snd p /\ snd p <= b.
Lemma integral_chain a b : a <= b -> forall l o, high a b o -> Forall (high a b) l ->
  integral (fun y => chain (Ef idq y) o l) a b (chain trap o l).
Proof.
  intros L l. induction l as [|q t IH]; intros o [O1 O2] F.
  - apply integral_zero, L.
  - inversion F as [|? ? [K1 K2] F']; subst. cbn [chain].
    apply (integral_plus (fun y => Ef idq y o q) (fun y => chain (Ef idq y) q t)).
    + apply integral_edge; assumption.
    + apply IH; [split; assumption|assumption].
Qed.
Lemma integral_cyc a b ps : a <= b -> Forall (high a b) ps ->
  integral (fun y => cyc (Ef idq y) ps) a b (cyc trap ps).
Proof.
  intros L F. destruct ps as [|p t].
  - apply integral_zero, L.
  - apply (integral_chain a b L (p :: t) (last (p :: t) p)); [|exact F].
    rewrite Forall_forall in F. apply F, last_in. discriminate.
Qed.

Lemma fan_trap p1 l : conv (p1 :: l) -> fan p1 l ==
  match l with [] => 0 | p2 :: t => trap p1 p2 + chain trap p2 t + trap (last t p2) p1 end.
Proof.
  revert p1. induction l as [|p2 [|p3 t] IH]; intros p1 C.
  - reflexivity.
  - cbn. unfold trap. field.
  - change (fan p1 (p2 :: p3 :: t)) with
      ((1#2) * Qabs (fst p1 * (snd p2 - snd p3) + fst p2 * (snd p3 - snd p1) + fst p3 * (snd p1 - snd p2)) + fan p1 (p3 :: t)).
    rewrite IH by (eapply conv_sub; [exact C|]; apply subl_take; constructor; apply subl_refl).
    cbn [chain]. rewrite last_cons.
    assert (S : 0 <= side p1 p2 p3) by (apply C; do 3 apply subl_take; apply subl_nil_l).
    assert (E : fst p1 * (snd p2 - snd p3) + fst p2 * (snd p3 - snd p1) + fst p3 * (snd p1 - snd p2) == side p1 p2 p3)
      by (unfold side; ring).
    rewrite E, (Qabs_pos _ S). unfold side, trap. field.
Qed.
Lemma polygon_trap ps : conv ps -> polyon_area ps == cyc trap ps.
Proof.
  destruct ps as [|p1 l]; intros C; [reflexivity|].
  unfold polyon_area. rewrite (fan_trap p1 l C). unfold cyc. rewrite last_cons. cbn [chain].
  destruct l as [|p2 t].
  - cbn. unfold trap. field.
  - cbn [chain]. rewrite last_cons. ring.
Qed.
(* the area computed for a convex polygon is the integral of its sections *)
Lemma polygon_integral a b ps : a <= b -> Forall (high a b) ps -> conv ps ->
  integral (fun y => cyc (Ef idq y) ps) a b (polyon_area ps).
Proof.
  intros L F C. eapply st_eq; [reflexivity|reflexivity|symmetry; apply polygon_trap; exact C|].
  apply integral_cyc; assumption.
Qed.
