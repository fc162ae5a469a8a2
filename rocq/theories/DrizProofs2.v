(* Proofs about clipping: convexity, and sums over the edges of convex polygons. *)
From Coq Require Import QArith Qabs Qround Lqa Setoid Morphisms.
From Verif Require Import Base DrizModel DrizSpec DrizProofs.
Local Open Scope Q_scope.

Inductive subl {A} : list A -> list A -> Prop :=
| subl_nil : subl [] []
| subl_skip x s l : subl s l -> subl s (x :: l)
| subl_take x s l : subl s l -> subl (x :: s) (x :: l).

Lemma subl_nil_l {A} (l : list A) : subl [] l.
Proof. induction l; constructor; assumption. Qed.
Lemma subl_refl {A} (l : list A) : subl l l.
Proof. induction l; constructor; assumption. Qed.
Lemma subl_trans {A} (a b c : list A) : subl a b -> subl b c -> subl a c.
Proof.
  intros H K. revert a H. induction K as [|x s l K IH|x s l K IH]; intros a H.
  - exact H.
  - constructor. apply IH, H.
  - inversion H; subst; constructor; apply IH; assumption.
Qed.
Lemma subl_app {A} (a b c d : list A) : subl a b -> subl c d -> subl (a ++ c) (b ++ d).
Proof. intros H K. induction H; simpl; [assumption| |]; constructor; assumption. Qed.
Lemma subl_app_inv {A} (l1 l2 s : list A) : subl s (l1 ++ l2) ->
  exists s1 s2, s = s1 ++ s2 /\ subl s1 l1 /\ subl s2 l2.
Proof.
  revert s; induction l1 as [|x l1 IH]; intros s H; simpl in H.
  - exists [], s. repeat split; [constructor|exact H].
  - inversion H as [|? ? ? K|? s' ? K]; subst.
    + destruct (IH _ K) as (s1 & s2 & A1 & A2 & A3). exists s1, s2. repeat split; [assumption|constructor; assumption|assumption].
    + destruct (IH _ K) as (s1 & s2 & A1 & A2 & A3). exists (x :: s1), s2.
      repeat split; [simpl; congruence|constructor; assumption|assumption].
Qed.
Lemma subl_in {A} (s l : list A) x : subl s l -> In x s -> In x l.
Proof. intros H; induction H; simpl; intuition. Qed.
Lemma in_subl {A} (l : list A) x : In x l -> subl [x] l.
Proof. induction l as [|y l IH]; simpl; [tauto|]. intros [->|H]; [apply subl_take, subl_nil_l|constructor; auto]. Qed.
Lemma last_in {A} (l : list A) d : l <> [] -> In (last l d) l.
Proof. intros H. destruct (@exists_last _ l H) as (q & w & ->). rewrite last_last. apply in_or_app; right; left; reflexivity. Qed.
Lemma subl_last {A} (l : list A) (x d : A) s : subl (s ++ [x]) l -> x = last l d \/ subl (s ++ [x] ++ [last l d]) l.
Proof.
  revert s; induction l as [|y l IH]; intros s H.
  - inversion H; destruct s; discriminate.
  - destruct l as [|y' l].
    + left. inversion H as [|? ? ? K|? ? ? K]; subst.
      * inversion K; destruct s; discriminate.
      * destruct s as [|z s]; simpl in *; [congruence|]. injection H0 as -> ->.
        inversion K. destruct s; discriminate.
    + change (last (y :: y' :: l) d) with (last (y' :: l) d).
      inversion H as [|? ? ? K|? ? ? K]; subst.
      * destruct (IH _ K) as [F|F]; [left; exact F|right; constructor; exact F].
      * destruct s as [|z s]; simpl in H0.
        -- injection H0 as -> ->. right. simpl. apply subl_take. apply in_subl.
           apply (last_in (y' :: l) d). discriminate.
        -- injection H0 as -> ->. destruct (IH _ K) as [F|F]; [left; exact F|right; apply subl_take; exact F].
Qed.
Lemma side_rot a b c : side a b c == side b c a.
Proof. unfold side. ring. Qed.
Lemma side_aab a b : side a a b == 0.
Proof. unfold side. ring. Qed.
Lemma side_abb a b : side a b b == 0.
Proof. unfold side. ring. Qed.
Lemma side_aba a b : side a b a == 0.
Proof. unfold side. ring. Qed.

Definition conv (ps : list point) : Prop := forall a b c, subl [a; b; c] ps -> 0 <= side a b c.
Definition on_seg (a b e : point) : Prop := exists s, 0 <= s /\ s <= 1 /\
  fst e == fst a + s * (fst b - fst a) /\ snd e == snd a + s * (snd b - snd a).

Lemma conv_sub s l : conv l -> subl s l -> conv s.
Proof. intros H K a b c F. apply H. eapply subl_trans; eassumption. Qed.

Lemma side_seg a b e p q : on_seg p q e -> (0 <= side p a b -> 0 <= side q a b -> 0 <= side e a b).
Proof.
  intros (s & S0 & S1 & Ex & Ey) Hp Hq.
  assert (K : side e a b == (1 - s) * side p a b + s * side q a b).
  { unfold side. rewrite Ex, Ey. ring. }
  rewrite K. assert (0 <= (1 - s) * side p a b) by (apply Qmult_le_0_compat; lra).
  assert (0 <= s * side q a b) by (apply Qmult_le_0_compat; lra). lra.
Qed.

Lemma conv_insert l1 q t p e d : conv (l1 ++ q :: t) ->
  (l1 = [] /\ p = last (q :: t) d \/ l1 <> [] /\ p = last l1 d) ->
  on_seg p q e -> conv (l1 ++ e :: q :: t).
Proof.
  intros C P S a b c F.
  apply subl_app_inv in F. destruct F as (s1 & s2 & Es & F1 & F2).
  inversion F2 as [|? ? ? K|? s2' ? K]; subst.
  - apply C. rewrite Es. apply subl_app; assumption.
  - destruct s1 as [|x1 [|x2 [|x3 s1]]]; simpl in Es; injection Es; intros; subst.
    + apply (side_seg b c e p q S).
      * destruct P as [[-> ->]|[N ->]].
        -- rewrite side_rot. destruct (subl_last _ c d [b] K) as [->|L]; [rewrite side_abb; lra|].
           apply C. exact L.
        -- apply C. apply (subl_app [last l1 d] l1 [b; c]); [apply in_subl, last_in; assumption|exact K].
      * inversion K as [|? ? ? K'|? ? ? K']; subst.
        -- apply C. apply (subl_app [] l1 [q; b; c]); [apply subl_nil_l|apply subl_take; exact K'].
        -- rewrite side_aab. lra.
    + assert (N : l1 <> []) by (intros ->; inversion F1).
      destruct P as [[-> _]|[_ ->]]; [congruence|].
      rewrite side_rot. apply (side_seg c x1 e _ q S).
      * rewrite <- side_rot. destruct (subl_last l1 x1 d [] F1) as [->|L]; [rewrite side_aab; lra|].
        apply C. apply (subl_app [x1; last l1 d] l1 [c]); [exact L|exact K].
      * rewrite <- side_rot. inversion K as [|? ? ? K'|? ? ? K']; subst.
        -- apply C. apply (subl_app [x1] l1 [q; c]); [exact F1|apply subl_take; exact K'].
        -- rewrite side_abb. lra.
    + assert (N : l1 <> []) by (intros ->; inversion F1).
      destruct P as [[-> _]|[_ ->]]; [congruence|].
      rewrite <- side_rot. apply (side_seg x1 x2 e _ q S).
      * rewrite side_rot. destruct (subl_last l1 x2 d [x1] F1) as [->|L]; [rewrite side_abb; lra|].
        apply C. rewrite <- (app_nil_r [x1; x2; last l1 d]). apply subl_app; [exact L|apply subl_nil_l].
      * rewrite side_rot. apply C. apply (subl_app [x1; x2] l1 [q]); [exact F1|apply subl_take, subl_nil_l].
    + destruct s1; discriminate.
Qed.

Section Ins.
Variable inn : point -> bool.
Variable cross : point -> point -> option point.
Hypothesis cross_seg : forall i1 i2 e, inn i1 <> inn i2 -> cross i1 i2 = Some e -> on_seg i2 i1 e.

Lemma conv_ins d t : forall l1 c, conv (l1 ++ t) ->
  (l1 = [] /\ c = last t d \/ l1 <> [] /\ c = last l1 d) ->
  conv (l1 ++ insf inn cross c t).
Proof.
  induction t as [|c' t IH]; intros l1 c C P; [exact C|].
  cbn [insf].
  assert (Step : conv ((l1 ++ [c']) ++ insf inn cross c' t)).
  { apply IH.
    - rewrite <- app_assoc. exact C.
    - right. split; [intros F; apply app_eq_nil in F; destruct F; discriminate|]. rewrite last_last. reflexivity. }
  destruct (xorb (inn c) (inn c')) eqn:X; [destruct (cross c' c) as [e|] eqn:K|]; cbn [app].
  - replace (l1 ++ e :: c' :: insf inn cross c' t) with ((l1 ++ [e; c']) ++ insf inn cross c' t)
      by (rewrite <- app_assoc; reflexivity).
    apply IH.
    + rewrite <- app_assoc. cbn [app]. apply (conv_insert l1 c' t c e d C P).
      apply (cross_seg c' c e); [|exact K]. destruct (inn c), (inn c'); cbn in X; congruence.
    + right. split; [intros F; apply app_eq_nil in F; destruct F; discriminate|].
      rewrite last_app_ne by discriminate. reflexivity.
  - rewrite <- app_assoc in Step. exact Step.
  - rewrite <- app_assoc in Step. exact Step.
Qed.
Lemma clip_sub c l : subl (clipf inn cross c l) (insf inn cross c l).
Proof.
  revert c; induction l as [|c' t IH]; intros c; [constructor|].
  cbn [clipf insf]. apply subl_app; [apply subl_refl|].
  destruct (inn c'); cbn [app]; constructor; apply IH.
Qed.
Lemma clip_conv ps d : conv ps -> conv (clipf inn cross (last ps d) ps).
Proof.
  intros C. eapply conv_sub; [|apply clip_sub].
  apply (conv_ins d ps []); [exact C|]. left; auto.
Qed.
End Ins.

Section Mono.
Variable E : point -> point -> Q.
Hypothesis anti : forall a b, E a b == - E b a.
Hypothesis tri : forall a b c, 0 <= side a b c -> 0 <= E a b + E b c + E c a.

Lemma E_same a : E a a == 0.
Proof. pose proof (anti a a). lra. Qed.
Lemma sub_path s l : subl s l -> forall o z, conv (o :: l ++ [z]) -> chain E o (s ++ [z]) <= chain E o (l ++ [z]).
Proof.
  intros H. induction H as [|x s l H IH|x s l H IH]; intros o z C.
  - lra.
  - eapply Qle_trans; [apply IH|].
    + eapply conv_sub; [exact C|]. apply subl_take. cbn [app]. constructor. apply subl_refl.
    + cbn [app chain]. assert (T : forall r w, chain E o (r :: w) <= E o x + chain E x (r :: w) \/ ~ 0 <= side o x r).
      { intros r w. destruct (Qlt_le_dec (side o x r) 0) as [N|N]; [right; lra|left].
        cbn [chain]. pose proof (tri o x r N). pose proof (anti r o). lra. }
      destruct l as [|r l]; cbn [app] in *.
      * destruct (T z []) as [?|N]; [assumption|]. exfalso; apply N, C. apply subl_refl.
      * destruct (T r (l ++ [z])) as [?|N]; [assumption|]. exfalso; apply N, C.
        do 3 apply subl_take. apply subl_nil_l.
  - cbn [app chain]. apply Qplus_le_r. apply IH.
    eapply conv_sub; [exact C|]. cbn [app]. constructor. apply subl_refl.
Qed.
Lemma conv_close a t : conv (a :: t) -> conv (a :: t ++ [a]).
Proof.
  intros C x y z F. apply (subl_app_inv (a :: t) [a]) in F. destruct F as (s1 & s2 & Es & F1 & F2).
  inversion F2 as [|? ? ? K|? ? ? K]; subst.
  - inversion K; subst. rewrite app_nil_r in Es. subst. apply C, F1.
  - inversion K; subst. destruct s1 as [|x1 [|x2 [|x3 s1]]]; try discriminate;
      [|exfalso; simpl in Es; injection Es as _ _ _ Es; destruct s1; discriminate].
    simpl in Es. injection Es as <- <- <-.
    rewrite side_rot, side_rot. inversion F1 as [|? ? ? K'|? ? ? K']; subst.
    + apply C. apply subl_take. exact K'.
    + rewrite side_aab. lra.
Qed.
Lemma cyc_cons a t : cyc E (a :: t) == chain E a (t ++ [a]).
Proof. unfold cyc. rewrite chain_app. cbn [chain]. rewrite last_cons. lra. Qed.
Lemma sub_cyc s l : subl s l -> conv l -> cyc E s <= cyc E l.
Proof.
  intros H. induction H as [|x s l H IH|x s l H IH]; intros C.
  - lra.
  - eapply Qle_trans; [apply IH|].
    + eapply conv_sub; [exact C|]. constructor. apply subl_refl.
    + destruct l as [|b t].
      * cbn. pose proof (E_same x). lra.
      * unfold cyc. rewrite (last_cons (b :: t) x x). set (z := last (b :: t) x). rewrite (last_indep (b :: t) b x) by discriminate. fold z.
        cbn [chain]. assert (N : 0 <= side z x b).
        { rewrite side_rot. unfold z. rewrite last_cons. destruct t as [|c t]; [cbn [last]; rewrite side_abb; lra|].
          apply C. do 2 apply subl_take. apply in_subl. apply last_in. discriminate. }
        pose proof (tri z x b N). pose proof (anti b z). lra.
  - rewrite !cyc_cons. apply sub_path; [exact H|]. apply conv_close. exact C.
Qed.
Lemma cyc_nonneg l : conv l -> 0 <= cyc E l.
Proof. intros C. apply (sub_cyc [] l); [apply subl_nil_l|exact C]. Qed.
End Mono.
