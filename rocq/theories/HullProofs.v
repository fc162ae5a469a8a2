(* Lemmas on convex hulls, part 1: geometry of the monotone chain. *)
From Coq Require Import ZifyBool.
From Verif Require Import Base HullModel HullSpec.
Open Scope Z_scope.

(* ---- vectors of the half-plane of the lexicographic order ---- *)
Definition posv (u : pt) : Prop := 0 < fst u \/ (fst u = 0 /\ 0 < snd u).
Definition crv (u v : pt) : Z := fst u * snd v - snd u * fst v.
Definition sub (b a : pt) : pt := (fst b - fst a, snd b - snd a).
Definition lt2 (a b : pt) : Prop := posv (sub b a).
Definition le2 (a b : pt) : Prop := a = b \/ lt2 a b.

Lemma crv_trans u v w : posv u -> posv v -> posv w -> 0 <= crv u v -> 0 <= crv v w -> 0 <= crv u w.
Proof.
  unfold posv, crv. destruct u as [a b], v as [c d], w as [e f]; cbn [fst snd]. intros Hu Hv Hw H1 H2.
  destruct Hv as [Hv|[Hv Hv']].
  - assert (c * (a * f - b * e) = a * (c * f - d * e) + e * (a * d - b * c)) by ring.
    assert (0 <= a) by lia. assert (0 <= e) by lia.
    assert (0 <= c * (a * f - b * e)) by nia. nia.
  - subst c. destruct Hu as [Hu|[Hu Hu']]; [|subst a; destruct Hw as [Hw|[Hw Hw']]; [nia|subst; nia]].
    destruct Hw as [Hw|[Hw Hw']]; [nia|subst; nia].
Qed.
Lemma crv_trans_l u v w : posv u -> posv v -> posv w -> 0 < crv u v -> 0 <= crv v w -> 0 < crv u w.
Proof.
  unfold posv, crv. destruct u as [a b], v as [c d], w as [e f]; cbn [fst snd]. intros Hu Hv Hw H1 H2.
  destruct Hv as [Hv|[Hv Hv']].
  - assert (c * (a * f - b * e) = a * (c * f - d * e) + e * (a * d - b * c)) by ring.
    destruct Hw as [Hw|[Hw Hw']].
    + assert (0 <= a) by lia. assert (0 < c * (a * f - b * e)) by nia. nia.
    + subst e. destruct Hu as [Hu|[Hu Hu']]; [nia|]. subst a. nia.
  - subst c. destruct Hw as [Hw|[Hw Hw']]; [nia|]. subst e. destruct Hu as [Hu|[Hu Hu']]; [nia|subst; nia].
Qed.
Lemma crv_trans_r u v w : posv u -> posv v -> posv w -> 0 <= crv u v -> 0 < crv v w -> 0 < crv u w.
Proof.
  unfold posv, crv. destruct u as [a b], v as [c d], w as [e f]; cbn [fst snd]. intros Hu Hv Hw H1 H2.
  destruct Hv as [Hv|[Hv Hv']].
  - assert (c * (a * f - b * e) = a * (c * f - d * e) + e * (a * d - b * c)) by ring.
    destruct Hu as [Hu|[Hu Hu']].
    + assert (0 <= e) by lia. assert (0 < c * (a * f - b * e)) by nia. nia.
    + subst a. destruct Hw as [Hw|[Hw Hw']]; [nia|]. subst e. nia.
  - subst c. destruct Hw as [Hw|[Hw Hw']]; [nia|]. subst e. destruct Hu as [Hu|[Hu Hu']]; [nia|subst; nia].
Qed.

Lemma area2_crv a b c : area2 a b c = crv (sub b a) (sub c a).
Proof. unfold area2, crv, sub. cbn [fst snd]. ring. Qed.
Lemma area2_shift a b c : area2 a b c = crv (sub b a) (sub c b).
Proof. unfold area2, crv, sub. cbn [fst snd]. ring. Qed.

Lemma lt2_cmp a b : {lt2 a b} + {a = b} + {lt2 b a}.
Proof.
  destruct a as [x y], b as [x' y']. unfold lt2, posv, sub. cbn [fst snd].
  destruct (Z_lt_le_dec x x'); [left; left; lia|]. destruct (Z_lt_le_dec x' x); [right; lia|].
  destruct (Z_lt_le_dec y y'); [left; left; lia|]. destruct (Z_lt_le_dec y' y); [right; lia|].
  left; right. f_equal; lia.
Qed.
Lemma lt2_irrefl a : ~ lt2 a a.
Proof. unfold lt2, posv, sub. cbn [fst snd]. lia. Qed.
Lemma lt2_trans a b c : lt2 a b -> lt2 b c -> lt2 a c.
Proof. unfold lt2, posv, sub. cbn [fst snd]. lia. Qed.
Lemma le2_lt2_trans a b c : le2 a b -> lt2 b c -> lt2 a c.
Proof. intros [->|H] H'; [exact H'|eapply lt2_trans; eauto]. Qed.
Lemma lt2_le2_trans a b c : lt2 a b -> le2 b c -> lt2 a c.
Proof. intros H [<-|H']; [exact H|eapply lt2_trans; eauto]. Qed.
Lemma le2_trans a b c : le2 a b -> le2 b c -> le2 a c.
Proof. intros [->|H] H'; [exact H'|]. right. eapply lt2_le2_trans; eauto. Qed.
Lemma le2_antisym a b : le2 a b -> le2 b a -> a = b.
Proof. intros [H|H] H'; [exact H|]. destruct (lt2_irrefl a). eapply lt2_le2_trans; eauto. Qed.

(* ---- the chain: the stack, top first ---- *)
Fixpoint popl (p : pt) (S : list pt) : list pt :=
  match S with
  | b :: ((a :: _) as S') => if area2 a b p <=? 0 then popl p S' else S
  | _ => S
  end.
Definition chain (S : list pt) (pts : list pt) : list pt := fold_left (fun S p => p :: popl p S) pts S.

Lemma popl_spec p S : S <> [] ->
  exists pre t rest, S = pre ++ t :: rest /\ popl p S = t :: rest /\
    (forall s r, rest = s :: r -> 0 < area2 s t p) /\
    (pre = [] \/ exists pre' u, pre = pre' ++ [u] /\ area2 t u p <= 0).
Proof.
  induction S as [|b S IH]; [congruence|]. intros _. destruct S as [|a S'].
  - exists [], b, []. cbn [popl app]. repeat split; auto. congruence.
  - cbn [popl]. destruct (Z.leb_spec (area2 a b p) 0) as [H|H].
    + destruct IH as (pre & t & rest & E & E' & H1 & H2); [congruence|].
      exists (b :: pre), t, rest. rewrite E. cbn [app]. rewrite <- E. repeat split; auto.
      right. destruct H2 as [->|(pre' & u & -> & H2)].
      * cbn [app] in E. injection E as <- <-. exists [], b. auto.
      * exists (b :: pre'), u. auto.
    + exists [], b, (a :: S'). cbn [app]. repeat split; auto. intros s r [= <- <-]. exact H.
Qed.

(* every edge of the stack goes up, its corners turn left, its edges have all points on the left *)
Definition sedge (S : list pt) (a b : pt) : Prop := exists S1 S2, S = S1 ++ b :: a :: S2.
Definition scorner (S : list pt) (a b c : pt) : Prop := exists S1 S2, S = S1 ++ c :: b :: a :: S2.
Record sinv (pts S : list pt) : Prop := {
  si_up : forall a b, sedge S a b -> lt2 a b;
  si_turn : forall a b c, scorner S a b c -> 0 < area2 a b c;
  si_left : forall a b q, sedge S a b -> In q pts -> 0 <= area2 a b q;
  si_top : forall t S', S = t :: S' -> forall q, In q pts -> le2 q t;
  si_bot : forall t S', S = S' ++ [t] -> forall q, In q pts -> le2 t q;
  si_incl : incl S pts;
  si_nonempty : S <> [] }.
(* all points so far are equal and the stack holds two of them *)
Definition ainv (pts S : list pt) : Prop :=
  exists p, S = [p; p] /\ (forall q, In q pts -> q = p) /\ In p pts.

Lemma sedge_cons S a b c : sedge (c :: S) a b <-> (c = b /\ exists S', S = a :: S') \/ sedge S a b.
Proof.
  split.
  - intros (S1 & S2 & E). destruct S1 as [|d S1]; cbn [app] in E; injection E as -> ->.
    + left. eauto.
    + right. exists S1, S2. reflexivity.
  - intros [(-> & S' & ->)|(S1 & S2 & ->)]; [exists [], S'|exists (c :: S1), S2]; reflexivity.
Qed.
Lemma scorner_cons S a b c d : scorner (d :: S) a b c <-> (d = c /\ exists S', S = b :: a :: S') \/ scorner S a b c.
Proof.
  split.
  - intros (S1 & S2 & E). destruct S1 as [|e S1]; cbn [app] in E; injection E as -> ->.
    + left. eauto.
    + right. exists S1, S2. reflexivity.
  - intros [(-> & S' & ->)|(S1 & S2 & ->)]; [exists [], S'|exists (d :: S1), S2]; reflexivity.
Qed.
Lemma sedge_app pre S a b : sedge S a b -> sedge (pre ++ S) a b.
Proof. intros (S1 & S2 & ->). exists (pre ++ S1), S2. now rewrite app_assoc. Qed.
Lemma scorner_app pre S a b c : scorner S a b c -> scorner (pre ++ S) a b c.
Proof. intros (S1 & S2 & ->). exists (pre ++ S1), S2. now rewrite app_assoc. Qed.

(* a vector turned left of the top edge is turned left of all edges *)
Lemma edges_before (S : list pt) : (forall a b, sedge S a b -> lt2 a b) ->
  (forall a b c, scorner S a b c -> 0 < area2 a b c) ->
  forall t s r w, S = t :: s :: r -> posv w -> 0 < crv (sub t s) w ->
  forall a b, sedge S a b -> 0 < crv (sub b a) w.
Proof.
  induction S as [|t0 S IH]; [congruence|]. intros Hup Hturn t s r w [= -> ->] Hw Hc a b He.
  rewrite sedge_cons in He. destruct He as [(-> & S' & [= -> ->])|He]; [exact Hc|].
  destruct r as [|z r].
  - destruct He as (S1 & S2 & E). destruct S1 as [|? [|]]; discriminate.
  - eapply (IH _ _ s z r w eq_refl Hw); [|exact He].
    Unshelve.
    + assert (T : 0 < area2 z s t) by (apply Hturn; exists [], r; reflexivity).
      rewrite area2_shift in T.
      eapply crv_trans_r; [| |exact Hw| |exact Hc].
      * apply Hup. exists [t], r. reflexivity.
      * apply Hup. exists [], (z :: r). reflexivity.
      * lia.
    + intros a' b' H. apply Hup. rewrite sedge_cons. auto.
    + intros a' b' c' H. apply Hturn. rewrite scorner_cons. auto.
Qed.

Lemma area2_same1 a b : area2 a a b = 0.
Proof. unfold area2. ring. Qed.
Lemma area2_same2 a b : area2 a b b = 0.
Proof. unfold area2. ring. Qed.
Lemma area2_same3 a b : area2 a b a = 0.
Proof. unfold area2. ring. Qed.

Lemma step_s pts S p : sinv pts S -> (forall q, In q pts -> le2 q p) ->
  sinv (pts ++ [p]) (p :: popl p S) \/ ainv (pts ++ [p]) (p :: popl p S).
Proof.
  intros I Hp. destruct (popl_spec p S (si_nonempty _ _ I)) as (pre & t & rest & E & E' & Hrest & Hpre).
  rewrite E'.
  assert (It : In t pts). { apply (si_incl _ _ I). rewrite E. apply in_or_app; right; left; reflexivity. }
  assert (Htp := Hp t It).
  (* the bottom *)
  assert (Hbot : rest = [] -> forall q, In q pts -> le2 t q).
  { intros -> q Hq. eapply (si_bot _ _ I); eauto. }
  assert (Htop : pre = [] -> forall q, In q pts -> le2 q t).
  { intros -> q Hq. eapply (si_top _ _ I); eauto. }
  assert (Hu : forall pre' u, pre = pre' ++ [u] -> lt2 t u /\ In u pts /\ forall q, In q pts -> 0 <= area2 t u q).
  { intros pre' u ->.
    assert (He : sedge S t u) by (exists pre', rest; rewrite E, <- app_assoc; reflexivity).
    split; [apply (si_up _ _ I); exact He|]. split.
    - apply (si_incl _ _ I). rewrite E. apply in_or_app; left. apply in_or_app; right; left; reflexivity.
    - intros q Hq. apply (si_left _ _ I); auto. }
  destruct Htp as [Htp|Htp].
  - (* the new point is t again *)
    subst p. right. destruct Hpre as [Hpre|(pre' & u & Hpre & _)].
    2:{ destruct (Hu _ _ Hpre) as (H1 & H2 & _). destruct (lt2_irrefl t). eapply lt2_le2_trans; eauto. }
    destruct rest as [|s r].
    2:{ specialize (Hrest s r eq_refl). rewrite area2_same2 in Hrest. lia. }
    exists t. split; [reflexivity|]. split.
    + intros q Hq. apply in_app_or in Hq as [Hq|[Hq|[]]]; [|auto].
      apply le2_antisym; auto.
    + apply in_or_app; right; left; reflexivity.
  - left.
    assert (Hedge : forall a b, sedge (t :: rest) a b -> sedge S a b).
    { intros a b H. rewrite E. apply sedge_app. exact H. }
    assert (Hnew : forall q, In q (pts ++ [p]) -> 0 <= area2 t p q).
    { intros q Hq. apply in_app_or in Hq as [Hq|[Hq|[]]]; [|subst q; rewrite area2_same2; lia].
      destruct (lt2_cmp q t) as [[Hqt|Hqt]|Hqt].
      - destruct rest as [|s r].
        { specialize (Hbot eq_refl q Hq). destruct (lt2_irrefl q). eapply lt2_le2_trans; eauto. }
        specialize (Hrest s r eq_refl). rewrite area2_shift in Hrest.
        assert (He : sedge S s t) by (apply Hedge; exists [], r; reflexivity).
        assert (Hq' := si_left _ _ I s t q He Hq). rewrite area2_shift in Hq'.
        assert (Hst := si_up _ _ I s t He).
        assert (0 <= crv (sub t q) (sub t s)) by (unfold crv, sub in *; cbn [fst snd] in *; lia).
        assert (0 < crv (sub t q) (sub p t)) by (eapply crv_trans_r; eauto).
        rewrite area2_crv. unfold crv, sub in *; cbn [fst snd] in *; lia.
      - subst q. rewrite area2_same3. lia.
      - destruct Hpre as [Hpre|(pre' & u & Hpre & Hc)].
        { specialize (Htop Hpre q Hq). destruct (lt2_irrefl q). eapply le2_lt2_trans; eauto. }
        destruct (Hu _ _ Hpre) as (H1 & _ & H3). specialize (H3 q Hq).
        rewrite area2_crv in *.
        eapply crv_trans; [exact Htp|exact H1|exact Hqt| |exact H3].
        unfold crv in *. lia. }
    split.
    + intros a b He. rewrite sedge_cons in He. destruct He as [(<- & S' & [= -> ->])|He]; [exact Htp|].
      apply (si_up _ _ I). auto.
    + intros a b c Hc. rewrite scorner_cons in Hc. destruct Hc as [(<- & S' & [= -> ->])|Hc].
      * eapply Hrest; reflexivity.
      * apply (si_turn _ _ I). rewrite E. apply scorner_app. exact Hc.
    + intros a b q He Hq. rewrite sedge_cons in He. destruct He as [(<- & S' & [= -> ->])|He]; [auto|].
      apply in_app_or in Hq as [Hq|[<-|[]]]; [apply (si_left _ _ I); auto|].
      destruct rest as [|s r]. { destruct He as (S1 & S2 & E1). destruct S1 as [|? [|]]; discriminate. }
      specialize (Hrest s r eq_refl). rewrite area2_shift in Hrest.
      assert (H1 : 0 < crv (sub b a) (sub p t)).
      { eapply (edges_before (t :: s :: r)); [| |reflexivity|exact Htp|exact Hrest|exact He].
        - intros a' b' H. apply (si_up _ _ I). auto.
        - intros a' b' c' H. apply (si_turn _ _ I). rewrite E. apply scorner_app. exact H. }
      assert (H2 := si_left _ _ I a b t (Hedge _ _ He) It).
      unfold area2, crv, sub in *. cbn [fst snd] in *. lia.
    + intros t' S' [= <- _] q Hq. apply in_app_or in Hq as [Hq|[<-|[]]]; [auto|left; reflexivity].
    + intros t' S' E1 q Hq.
      assert (Hb : forall q, In q pts -> le2 t' q).
      { intros q' Hq'. destruct S' as [|p' S']; cbn [app] in E1; [discriminate|]. injection E1 as <- E1.
        apply (si_bot _ _ I t' (pre ++ S')); [|exact Hq']. rewrite E, E1, app_assoc. reflexivity. }
      apply in_app_or in Hq as [Hq|[<-|[]]]; [auto|]. eapply le2_trans; [apply Hb, It|]. right. exact Htp.
    + intros q [<-|Hq]; [apply in_or_app; right; left; reflexivity|]. apply in_or_app; left.
      apply (si_incl _ _ I). rewrite E. apply in_or_app; right. exact Hq.
    + discriminate.
Qed.

Lemma step_a pts S p : ainv pts S -> (forall q, In q pts -> le2 q p) ->
  sinv (pts ++ [p]) (p :: popl p S) \/ ainv (pts ++ [p]) (p :: popl p S).
Proof.
  intros (a & -> & Heq & Ha) Hp. cbn [popl]. rewrite area2_same1. cbn [Z.leb]. 
  destruct (Hp a Ha) as [<-|H].
  - right. exists a. split; [reflexivity|]. split; [|apply in_or_app; auto].
    intros q Hq. apply in_app_or in Hq as [Hq|[<-|[]]]; auto.
  - left. split.
    + intros b c (S1 & S2 & E). destruct S1 as [|? [|? [|]]]; try discriminate. injection E as <- <- <-. exact H.
    + intros b c d (S1 & S2 & E). destruct S1 as [|? [|? [|]]]; discriminate.
    + intros b c q (S1 & S2 & E) Hq. destruct S1 as [|? [|? [|]]]; try discriminate. injection E as <- <- <-.
      apply in_app_or in Hq as [Hq|[<-|[]]]; [rewrite (Heq q Hq), area2_same3|rewrite area2_same2]; lia.
    + intros t S' [= <- _] q Hq. apply in_app_or in Hq as [Hq|[<-|[]]]; [auto|left; reflexivity].
    + intros t S' E q Hq. destruct S' as [|? [|? [|]]]; try discriminate. injection E as _ <-.
      apply in_app_or in Hq as [Hq|[<-|[]]]; [left; symmetry; auto|right; exact H].
    + intros q [<-|[<-|[]]]; apply in_or_app; [right; left; reflexivity|left; exact Ha].
    + discriminate.
Qed.

Lemma chain_inv pts : pts <> [] -> StronglySorted le2 pts ->
  sinv pts (chain [] pts) \/ ainv pts (chain [] pts).
Proof.
  induction pts as [|p pts IH] using rev_ind; [congruence|]. intros _ Hs.
  unfold chain. rewrite fold_left_app. cbn [fold_left]. fold (chain [] pts).
  destruct pts as [|q pts'].
  - left. cbn. split.
    + intros b c (S1 & S2 & E). destruct S1 as [|? [|]]; discriminate.
    + intros b c d (S1 & S2 & E). destruct S1 as [|? [|]]; discriminate.
    + intros b c q (S1 & S2 & E). destruct S1 as [|? [|]]; discriminate.
    + intros t S' [= <- _] q [<-|[]]. left; reflexivity.
    + intros t S' E q [<-|[]]. destruct S' as [|? [|]]; try discriminate. injection E as <-. left; reflexivity.
    + intros q; auto.
    + discriminate.
  - assert (Hs' : StronglySorted le2 (q :: pts') /\ forall r, In r (q :: pts') -> le2 r p).
    { clear IH. revert Hs. generalize (q :: pts') as l. induction l as [|a l IHl]; cbn [app]; intros Hs.
      - split; [constructor|intros r []].
      - inversion Hs as [|? ? H1 H2]; subst. destruct (IHl H1) as (H3 & H4). split.
        + constructor; [exact H3|]. rewrite Forall_forall in *. intros x Hx. apply H2, in_or_app; auto.
        + rewrite Forall_forall in H2. intros r [<-|Hr]; [apply H2, in_or_app; right; left; reflexivity|auto]. }
    destruct Hs' as (Hs1 & Hs2). destruct IH as [I|I]; [congruence|exact Hs1| |].
    + apply step_s; assumption.
    + apply step_a; assumption.
Qed.
