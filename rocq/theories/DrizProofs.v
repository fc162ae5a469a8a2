(* Proofs about clipping: sums over the edges of a polygon. *)
From Coq Require Import QArith Qabs Qround Lqa Setoid Morphisms.
From Verif Require Import Base DrizModel DrizSpec.
Local Open Scope Q_scope.

Lemma last_indep {A} (l : list A) a b : l <> [] -> last l a = last l b.
Proof.
  induction l as [|x [|y t] IH]; intros H; [congruence|reflexivity|].
  change (last (y :: t) a = last (y :: t) b). apply IH. discriminate.
Qed.
Lemma last_cons {A} (l : list A) x d : last (x :: l) d = last l x.
Proof.
  revert x; induction l as [|y t IH]; intros x; [reflexivity|].
  change (last (y :: t) d = last (y :: t) x). apply last_indep. discriminate.
Qed.
Lemma last_app_ne {A} (l l' : list A) d : l' <> [] -> last (l ++ l') d = last l' d.
Proof.
  induction l as [|x t IH]; intros H; [reflexivity|].
  simpl app. rewrite last_cons. rewrite <- (IH H).
  apply last_indep. destruct t; simpl; [assumption|discriminate].
Qed.

Section Sums.
Variable E : point -> point -> Q.
Fixpoint chain (o : point) (l : list point) : Q :=
  match l with [] => 0 | q :: t => E o q + chain q t end.
Definition cyc (ps : list point) : Q :=
  match ps with [] => 0 | p :: _ => chain (last ps p) ps end.

Lemma chain_app o l l' : chain o (l ++ l') == chain o l + chain (last l o) l'.
Proof.
  revert o; induction l as [|q t IH]; intros o; simpl app; cbn [chain].
  - cbn [last]. lra.
  - rewrite IH, last_cons. lra.
Qed.

(* the loop that keeps the inner vertices and adds the crossings *)
Variable inn : point -> bool.
Variable cross : point -> point -> option point.
Fixpoint clipf (i2 : point) (l : list point) : list point :=
  match l with
  | [] => []
  | i1 :: t =>
      (if xorb (inn i2) (inn i1) then match cross i1 i2 with Some e => [e] | None => [] end else [])
      ++ (if inn i1 then [i1] else []) ++ clipf i1 t
  end.
(* the same loop keeping everything *)
Fixpoint insf (i2 : point) (l : list point) : list point :=
  match l with
  | [] => []
  | i1 :: t =>
      (if xorb (inn i2) (inn i1) then match cross i1 i2 with Some e => [e] | None => [] end else [])
      ++ i1 :: insf i1 t
  end.

Hypothesis split_ok : forall i1 i2 e, inn i1 <> inn i2 -> cross i1 i2 = Some e ->
  E i2 i1 == E i2 e + E e i1.

Lemma ins_chain l : forall c o, o = c -> chain o (insf c l) == chain c l.
Proof.
  induction l as [|c' t IH]; intros c o ->; [reflexivity|].
  cbn [insf chain]. destruct (xorb (inn c) (inn c')) eqn:X.
  - destruct (cross c' c) as [e|] eqn:K; cbn [app chain].
    + rewrite IH by reflexivity. rewrite (split_ok c' c e); [lra| |exact K].
      destruct (inn c), (inn c'); cbn in X; congruence.
    + rewrite IH by reflexivity. lra.
  - cbn [app chain]. rewrite IH by reflexivity. lra.
Qed.
Lemma ins_last l : forall c d, l <> [] -> last (insf c l) d = last l d.
Proof.
  induction l as [|c' t IH]; intros c d H; [congruence|].
  cbn [insf]. rewrite last_app_ne by discriminate. rewrite !last_cons.
  destruct t as [|c2 t]; [reflexivity|]. apply IH. discriminate.
Qed.
Lemma ins_nil c l : l <> [] -> insf c l <> [].
Proof. destruct l as [|c' t]; intros H; [congruence|]. cbn [insf]. intros F.
  apply app_eq_nil in F. destruct F. discriminate. Qed.
Lemma cyc_last ps d : ps <> [] -> cyc ps = chain (last ps d) ps.
Proof. destruct ps as [|p t]; intros H; [congruence|]. unfold cyc.
  rewrite (last_indep (p :: t) p d) by discriminate. reflexivity. Qed.
Lemma ins_cyc ps d : ps <> [] -> cyc (insf (last ps d) ps) == cyc ps.
Proof.
  intros H. rewrite (cyc_last _ d) by (apply ins_nil; assumption). rewrite (cyc_last ps d) by assumption.
  rewrite ins_last by assumption. apply ins_chain. reflexivity.
Qed.

Variable W : point -> Prop.
Variable v : point -> Q.
Hypothesis wide : forall a b, W a -> W b -> E a b == v a - v b.
Hypothesis cross_W : forall i1 i2 e, inn i1 <> inn i2 -> cross i1 i2 = Some e -> W e.
Hypothesis none_W : forall i1 i2, inn i1 <> inn i2 -> cross i1 i2 = None -> W i1 /\ W i2.
Hypothesis out_W : forall a, inn a = false -> W a.
Hypothesis same0 : forall a, E a a == 0.

Definition rel (c o : point) : Prop := if inn c then o = c else W o.

Lemma clip_run l : forall c o, rel c o ->
  chain o (clipf c l) + E (last (clipf c l) o) (last l c) == E o c + chain c l /\
  rel (last l c) (last (clipf c l) o).
Proof.
  induction l as [|c' t IH]; intros c o R.
  - cbn. split; [lra|exact R].
  - cbn [clipf chain]. rewrite (last_cons t c').
    unfold rel in R. destruct (inn c) eqn:Ic; destruct (inn c') eqn:Ic'; cbn [xorb app].
    + subst o. cbn [chain]. rewrite last_cons.
      destruct (IH c' c') as [A B]; [unfold rel; rewrite Ic'; reflexivity|].
      split; [|exact B]. pose proof (same0 c). pose proof (same0 c'). lra.
    + subst o. destruct (cross c' c) as [e|] eqn:K.
      * cbn [app chain]. rewrite last_cons.
        assert (We : W e) by (apply (cross_W c' c e); congruence).
        destruct (IH c' e) as [A B]; [unfold rel; rewrite Ic'; exact We|].
        split; [|exact B]. pose proof (same0 c).
        assert (S' := split_ok c' c e). rewrite S' by congruence. lra.
      * destruct (none_W c' c) as [Wc' Wc]; [congruence|assumption|].
        cbn [app]. destruct (IH c' c) as [A B]; [unfold rel; rewrite Ic'; exact Wc|].
        split; [|exact B]. pose proof (same0 c). lra.
    + assert (Wc := out_W c Ic).
      destruct (cross c' c) as [e|] eqn:K.
      * cbn [app chain]. rewrite !last_cons.
        assert (We : W e) by (apply (cross_W c' c e); congruence).
        destruct (IH c' c') as [A B]; [unfold rel; rewrite Ic'; reflexivity|].
        split; [|exact B]. pose proof (same0 c').
        rewrite (split_ok c' c e) by congruence.
        rewrite (wide o e), (wide o c), (wide c e) by assumption. lra.
      * destruct (none_W c' c) as [Wc' _]; [congruence|assumption|].
        cbn [app chain]. rewrite last_cons.
        destruct (IH c' c') as [A B]; [unfold rel; rewrite Ic'; reflexivity|].
        split; [|exact B]. pose proof (same0 c').
        rewrite (wide o c'), (wide o c), (wide c c') by assumption. lra.
    + assert (Wc := out_W c Ic). assert (Wc' := out_W c' Ic').
      destruct (IH c' o) as [A B]; [unfold rel; rewrite Ic'; exact R|].
      split; [|exact B]. rewrite (wide o c'), (wide o c), (wide c c') in * by assumption. lra.
Qed.

Lemma clip_cyc ps d : ps <> [] -> cyc (clipf (last ps d) ps) == cyc ps.
Proof.
  intros H. rewrite (cyc_last ps d) by assumption. set (c := last ps d).
  assert (R0 : rel c c). { unfold rel. destruct (inn c) eqn:I; [reflexivity|apply out_W; exact I]. }
  destruct (clip_run ps c c R0) as [A B].
  assert (Lc : last ps c = c) by (unfold c; apply last_indep; exact H).
  rewrite Lc in *.
  destruct (clipf c ps) as [|q t] eqn:K.
  - cbn in A, B. cbn. rewrite (same0 c) in A. lra.
  - rewrite <- K in *. set (o := last (clipf c ps) c) in *.
    destruct (clip_run ps c o B) as [A' _]. rewrite Lc in A'.
    rewrite (cyc_last _ c) by (rewrite K; discriminate). fold o.
    assert (Lo : last (clipf c ps) o = o) by (unfold o; apply last_indep; rewrite K; discriminate).
    rewrite Lo in A'. lra.
Qed.
End Sums.
