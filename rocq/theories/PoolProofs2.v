From Verif Require Import Base IndexProofs VecProofs PoolModel PoolSpec PoolProofs.
Section Proofs.
Context {T : Type}.
Implicit Type s : state T.

Lemma run_app : forall a b s, run (a ++ b) s = (s' <- run a s ;; run b s').
Proof. intros. unfold run. apply ofold_app. Qed.
Lemma step_keep_inv : forall p0 s t s', inv p0 s -> step s t = Ok s' -> inv p0 s'.
Proof. intros p0 s t s' I H. destruct (step_inv p0 s t I) as (s2 & E & I2). rewrite H in E. injection E as <-. exact I2. Qed.
Lemma wturns_cons : forall i t sched, wturns i (t :: sched) = (match t with TW j => if j =? i then 1 else 0 | TO => 0 end) + wturns i sched.
Proof. intros. unfold wturns. cbn. destruct t; auto. destruct (i0 =? i); reflexivity. Qed.
Lemma oturns_cons : forall t sched, oturns (t :: sched) = (match t with TO => 1 | TW _ => 0 end) + oturns sched.
Proof. intros. unfold oturns. cbn. destruct t; reflexivity. Qed.

Lemma run_cons : forall t s s' more, step s t = Ok s' -> run (t :: more) s = run more s'.
Proof. intros t s s' more H. unfold run. cbn [ofold]. rewrite H. reflexivity. Qed.
(* what a turn of worker i does *)
Lemma wturn : forall i s s', step s (TW i) = Ok s' ->
  (s' = s /\ (forall x, nth_error (ws s) i = Some x -> wstep1 i x = None)) \/
  exists x y es, nth_error (ws s) i = Some x /\ wstep1 i x = Some (y, es) /\ ws s' = upd (ws s) i y /\ own s' = own s.
Proof.
  intros i s s' H. cbn in H. injection H as <-. unfold wstep. destruct (nth_error (ws s) i) as [x|] eqn:X; [|left; split; [auto|discriminate]].
  destruct (wstep1 i x) as [(y, es)|] eqn:Y; [right; exists x, y, es; cbn; auto|]. left. split; auto. intros x' E. injection E as <-. auto.
Qed.

Lemma returned_cons : forall e s t s' more, step s t = Ok s' -> returned_with e s' more -> returned_with e s (t :: more).
Proof.
  intros e s t s' more H (a & b & s1 & lg & -> & R & L & O). exists (t :: a), b, s1, lg. split; auto. split; auto. now rewrite (run_cons t s s').
Qed.
Lemma returned_app : forall e a b s s', run a s = Ok s' -> returned_with e s' b -> returned_with e s (a ++ b).
Proof.
  intros e a b s s' H (x & y & s1 & lg & -> & R & L & O). exists (a ++ x), y, s1, lg. split; [apply app_assoc|]. split; auto.
  rewrite run_app, H. exact R.
Qed.
Lemma returned_more : forall e s a b, returned_with e s a -> returned_with e s (a ++ b).
Proof. intros e s a b (x & y & s1 & lg & -> & R & L & O). exists x, (y ++ b), s1, lg. split; [symmetry; apply app_assoc|auto]. Qed.

(* a phase of the owner in which it waits for the workers: pot bounds the turns that a
   worker needs, rank those of the owner once the workers are ready *)
Section Phase.
Variables (pot : wk T -> nat) (cond : wk T -> Prop) (ph : opc -> Prop) (rank : nat -> opc -> nat) (e : event T).
Hypothesis pot_step : forall i g x, winv i g x -> cond x ->
  match wstep1 i x with Some (y, _) => cond y /\ pot y <= pot x - 1 | None => pot x = 0 end.
Hypothesis owner_step : forall p0 s s', inv p0 s -> ph (own s) -> (forall i x, nth_error (ws s) i = Some x -> cond x) -> step s TO = Ok s' ->
  (own s' = OIdle /\ exists lg, log s' = lg ++ [e]) \/
  (ph (own s') /\ length (ws s') = length (ws s) /\
   (forall i x', nth_error (ws s') i = Some x' -> exists x, nth_error (ws s) i = Some x /\ (cond x -> cond x') /\ pot x' <= pot x) /\
   ((forall i x, nth_error (ws s) i = Some x -> pot x = 0) -> rank (length (ws s)) (own s') < rank (length (ws s)) (own s))).
Definition waiting s : Prop := ph (own s) /\ forall i x, nth_error (ws s) i = Some x -> cond x.

Lemma phase1 : forall more p0 s, inv p0 s -> waiting s ->
  returned_with e s more \/
  exists s', run more s = Ok s' /\ inv p0 s' /\ waiting s' /\ length (ws s') = length (ws s) /\
    ((forall i x, nth_error (ws s) i = Some x -> pot x = 0) -> rank (length (ws s)) (own s') + oturns more <= rank (length (ws s)) (own s)) /\
    forall i x', nth_error (ws s') i = Some x' -> exists x, nth_error (ws s) i = Some x /\ pot x' <= pot x - wturns i more.
Proof.
  induction more as [|t more IH]; intros p0 s I SC.
  - right. exists s. split; [reflexivity|]. split; auto. split; auto. split; auto. split; [intros _; change (oturns []) with 0; lia|]. intros i x' H. exists x'. split; auto. change (wturns i []) with 0. lia.
  - destruct (step_inv p0 s t I) as (s1 & H1 & I1). destruct SC as (Ho & NS).
    assert (K : returned_with e s (t :: more) \/ (waiting s1 /\ length (ws s1) = length (ws s) /\
      ((forall i x, nth_error (ws s) i = Some x -> pot x = 0) -> rank (length (ws s)) (own s1) + (match t with TO => 1 | TW _ => 0 end) <= rank (length (ws s)) (own s)) /\
      forall i x', nth_error (ws s1) i = Some x' -> exists x, nth_error (ws s) i = Some x /\ pot x' <= pot x - (match t with TW j => if j =? i then 1 else 0 | TO => 0 end))).
    { destruct t as [|j].
      - destruct (owner_step p0 s s1 I Ho NS H1) as [(O1 & lg & L1)|(P1 & LN & W1 & RK)].
        + left. exists [TO], more, s1, lg. split; auto. split; auto. rewrite (run_cons TO s s1) by auto. reflexivity.
        + right. split; [split; [auto|]|].
          * intros i x' Hx'. destruct (W1 i x' Hx') as (x & Hx & C & _). eauto.
          * split; auto. split; [intros Z; specialize (RK Z); lia|]. intros i x' Hx'. destruct (W1 i x' Hx') as (x & Hx & _ & C). exists x. split; auto. lia.
      - right. destruct (wturn j s s1 H1) as [(-> & NO)|(x & y & es & X & Y & EW & EO)].
        + split; [split; auto|]. split; auto. split; [intros; lia|]. intros i x' Hx'. exists x'. split; auto. destruct (Nat.eqb_spec j i) as [->|]; [|lia].
          pose proof (pot_step i _ x' (i_w _ _ I i x' Hx') (NS i x' Hx')) as PS. rewrite (NO x' Hx') in PS. lia.
        + pose proof (pot_step j _ x (i_w _ _ I j x X) (NS j x X)) as PS. rewrite Y in PS. destruct PS as (CY & PY).
          split; [split; [now rewrite EO|]|].
          * rewrite EW. intros i z Hz. destruct (nth_upd _ _ _ _ _ Hz) as [(<- & -> & _)|(N & Hz')]; eauto.
          * rewrite EW, upd_length, EO. split; auto. split; [intros; lia|]. intros i z Hz. destruct (nth_upd _ _ _ _ _ Hz) as [(<- & -> & _)|(N & Hz')].
            -- exists x. split; auto. rewrite Nat.eqb_refl. auto.
            -- exists z. split; auto. destruct (Nat.eqb_spec j i); [contradiction|lia]. }
    destruct K as [K|(W1 & LN1 & RK1 & P1)]; [now left|].
    destruct (IH p0 s1 I1 W1) as [R|(s' & R & I' & SC' & LN & RK & P)]; [left; eapply returned_cons; eauto|]. right. exists s'.
    split; [now rewrite (run_cons t s s1)|]. split; auto. split; auto. split; [congruence|]. split.
    + intros Z. rewrite oturns_cons. rewrite LN1 in RK. specialize (RK1 Z). assert (Z1 : forall i x, nth_error (ws s1) i = Some x -> pot x = 0).
      { intros i x Hx. destruct (P1 i x Hx) as (x0 & Hx0 & LE). rewrite (Z i x0 Hx0) in LE. lia. }
      specialize (RK Z1). lia.
    + intros i x' Hx'. destruct (P i x' Hx') as (x1 & Hx1 & L1). destruct (P1 i x1 Hx1) as (x & Hx & L0). exists x. split; auto. rewrite wturns_cons. lia.
Qed.
Hypothesis rank_pos : forall p0 s, inv p0 s -> ph (own s) -> 0 < rank (length (ws s)) (own s).
Lemma phase2 : forall m1 m2 p0 s, inv p0 s -> waiting s ->
  (forall i x, nth_error (ws s) i = Some x -> pot x <= wturns i m1) ->
  (forall o, ph o -> rank (length (ws s)) o <= oturns m2) ->
  returned_with e s (m1 ++ m2).
Proof.
  intros m1 m2 p0 s I W L1 L2. destruct (phase1 m1 p0 s I W) as [R|(s1 & R1 & I1 & W1 & LN1 & _ & P1)]; [now apply returned_more|].
  eapply returned_app; [exact R1|]. destruct (phase1 m2 p0 s1 I1 W1) as [R|(s2 & R2 & I2 & W2 & LN2 & RK & _)]; auto. exfalso.
  assert (Z : forall i x, nth_error (ws s1) i = Some x -> pot x = 0).
  { intros i x Hx. destruct (P1 i x Hx) as (x0 & Hx0 & LE). specialize (L1 i x0 Hx0). lia. }
  specialize (RK Z). rewrite LN1 in RK. specialize (L2 (own s1) (proj1 W1)). pose proof (rank_pos p0 s2 I2 (proj1 W2)) as RP. rewrite LN2, LN1 in RP. lia.
Qed.
End Phase.

(* --- consume_all ------------------------------------------------------------------------ *)
Definition pot1 (x : wk T) : nat :=
  match inq x with [] => 0 | _ => 2 * length (inq x) + match wat x with WTop | WRun _ => 1 | _ => 0 end end.
Definition cond1 (x : wk T) : Prop := shut x = false.
Definition ph1 (o : opc) : Prop := match o with OScan _ => True | _ => False end.
Definition rank1 (n : nat) (o : opc) : nat := match o with OScan k => n - k + 1 | _ => 0 end.
Lemma consume_all_returns : forall m1 m2 p0 s k, inv p0 s -> own s = OScan k ->
  (forall i x, nth_error (ws s) i = Some x -> shut x = false) ->
  (forall i x, nth_error (ws s) i = Some x -> 2 * length (inq x) + 1 <= wturns i m1) -> length (ws s) + 1 <= oturns m2 ->
  returned_with EDrained s (m1 ++ m2).
Proof.
  intros m1 m2 p0 s k I Ho NS L1 L2. apply (phase2 pot1 cond1 ph1 rank1 EDrained) with (p0 := p0); auto.
  - intros i g [q b w j] (A & B & C & D) S. unfold cond1 in *. cbn in S. subst b. cbn [inq shut wat joinable] in *. unfold wstep1. cbn [inq shut wat joinable].
    destruct w as [| |t|].
    + cbn. split; auto. unfold pot1. cbn. destruct q; cbn; lia.
    + destruct q as [|t q]; cbn; (split; [reflexivity|]); unfold pot1; cbn; [lia|]. destruct q; cbn; lia.
    + cbn. split; auto. unfold pot1. cbn. destruct q; cbn; lia.
    + specialize (C eq_refl). discriminate.
  - clear -T. intros p0 [w l o p lg] s' I Ho NS H. pose proof (i_pc _ _ I) as PC. cbn [own ws log] in *. destruct o as [| |k| |]; cbn in Ho; try contradiction.
    cbn [step ostep] in H. destruct (Nat.eqb_spec k (length w)) as [->|N].
    + injection H as <-. left. cbn. eauto.
    + unfold oget in H. destruct (nth_error w k) as [x|] eqn:X; [|apply nth_error_None in X; lia]. injection H as <-. cbn [own ws]. right.
      split; [destruct (0 <? length (inq x)); exact Logic.I|]. split; auto. split; [intros i x' Hx'; exists x'; auto|].
      intros Z. specialize (Z k x X). unfold pot1 in Z. destruct (inq x) eqn:Q; cbn in *; lia.
  - intros p1 s1 I1 P. destruct (own s1) as [| |k1| |]; cbn in *; try contradiction. lia.
  - split; [rewrite Ho; exact Logic.I|exact NS].
  - intros i x Hx. specialize (L1 i x Hx). unfold pot1. destruct (inq x); [lia|]. destruct (wat x); lia.
  - intros o P. destruct o; cbn in *; try contradiction. lia.
Qed.

(* --- join ---------------------------------------------------------------------------------- *)
Definition pot2 (x : wk T) : nat :=
  match wat x with WDone => 0 | WTop => 2 * length (inq x) + 1 | WPop => 2 * length (inq x) + 2 | WRun _ => 2 * length (inq x) + 3 end.
Definition cond2 (x : wk T) : Prop := shut x = true.
Definition ph2 (o : opc) : Prop := match o with OWait _ => True | _ => False end.
Definition rank2 (n : nat) (o : opc) : nat := match o with OWait k => n - k + 1 | _ => 0 end.
Lemma join_returns : forall m1 m2 p0 s k, inv p0 s -> own s = OWait k ->
  (forall i x, nth_error (ws s) i = Some x -> 2 * length (inq x) + 3 <= wturns i m1) -> length (ws s) + 1 <= oturns m2 ->
  returned_with EJoined s (m1 ++ m2).
Proof.
  intros m1 m2 p0 s k I Ho L1 L2. assert (NS : forall i x, nth_error (ws s) i = Some x -> shut x = true) by (intros i x Hx; apply (i_wait _ _ I k Ho i x Hx)).
  apply (phase2 pot2 cond2 ph2 rank2 EJoined) with (p0 := p0); auto.
  - intros i g [q b w j] (A & B & C & D) S. unfold cond2 in *. cbn in S. subst b. cbn [inq shut wat joinable] in *. unfold wstep1. cbn [inq shut wat joinable].
    destruct w as [| |t|].
    + cbn. split; auto. unfold pot2. cbn. lia.
    + destruct q as [|t q]; cbn; (split; [reflexivity|]); unfold pot2; cbn; lia.
    + cbn. split; auto. unfold pot2. cbn. lia.
    + reflexivity.
  - clear -T. intros p0 [w l o p lg] s' I Ho NS H. pose proof (i_pc _ _ I) as PC. cbn [own ws log] in *. destruct o as [| | | |k]; cbn in Ho; try contradiction.
    cbn [step ostep] in H. destruct (Nat.eqb_spec k (length w)) as [->|N].
    + injection H as <-. left. cbn. eauto.
    + unfold oget in H. destruct (nth_error w k) as [x|] eqn:X; [|apply nth_error_None in X; lia]. cbn [obind] in H.
      assert (KL : k < length w) by lia. unfold oset in H. destruct (Nat.ltb_spec k (length w)); [|lia]. destruct (joinable x) eqn:J.
      * destruct (wat x) eqn:WX; cbn [obind] in H; injection H as <-; cbn [own ws]; right; split; try exact Logic.I.
        -- split; auto. split; [intros i x' Hx'; exists x'; auto|]. intros Z. specialize (Z k x X). unfold pot2 in Z. rewrite WX in Z. lia.
        -- split; auto. split; [intros i x' Hx'; exists x'; auto|]. intros Z. specialize (Z k x X). unfold pot2 in Z. rewrite WX in Z. lia.
        -- split; auto. split; [intros i x' Hx'; exists x'; auto|]. intros Z. specialize (Z k x X). unfold pot2 in Z. rewrite WX in Z. lia.
        -- rewrite upd_length. split; auto. split; [|intros _; cbn; lia]. intros i x' Hx'. destruct (nth_upd _ _ _ _ _ Hx') as [(<- & -> & _)|(N' & Hz')].
           ++ exists x. split; auto. split; [auto|]. unfold pot2. cbn. lia.
           ++ exists x'. auto.
      * injection H as <-. cbn [own ws]. right. split; [exact Logic.I|]. split; auto. split; [intros i x' Hx'; exists x'; auto|]. intros _. cbn. lia.
  - intros p1 s1 I1 P. destruct (own s1) as [| | | |k1]; cbn in *; try contradiction. lia.
  - split; [rewrite Ho; exact Logic.I|exact NS].
  - intros i x Hx. specialize (L1 i x Hx). unfold pot2. destruct (wat x); lia.
  - intros o P. destruct o; cbn in *; try contradiction. lia.
Qed.

(* --- what never returns ---------------------------------------------------------------------- *)
(* consume_all with items left to a worker that has stopped *)
Lemma scan_stuck : forall more p0 s i x, inv p0 s -> (exists k, own s = OScan k) -> nth_error (ws s) i = Some x -> wat x = WDone -> inq x <> [] ->
  exists s', run more s = Ok s' /\ inv p0 s' /\ (exists k, own s' = OScan k) /\ nth_error (ws s') i = Some x.
Proof.
  induction more as [|t more IH]; intros p0 s i x I (k & Ho) X WX QX; [exists s; cbn; eauto 6|].
  destruct (step_inv p0 s t I) as (s1 & H1 & I1). rewrite (run_cons t s s1) by auto. destruct t as [|j].
  - destruct s as [w l o p lg]. pose proof (i_scan _ _ I k Ho i x) as IS. pose proof (i_pc _ _ I) as PC. cbn [own ws] in *. subst o. cbn [step ostep] in H1.
    destruct (Nat.eqb_spec k (length w)) as [->|N].
    + exfalso. apply QX, IS; auto. apply nth_error_Some. congruence.
    + unfold oget in H1. destruct (nth_error w k) as [x1|] eqn:X1; [|apply nth_error_None in X1; lia]. injection H1 as <-.
      apply (IH p0 _ i x); auto. cbn [own]. destruct (0 <? length (inq x1)); eauto.
  - destruct (wturn j s s1 H1) as [(-> & NO)|(y & y' & es & Y & Y' & EW & EO)]; [eapply IH; eauto|].
    eapply IH; eauto; [rewrite EO; eauto|]. rewrite EW. destruct (Nat.eq_dec j i) as [->|N]; [|rewrite nth_error_upd_other; [exact X|congruence]].
    rewrite X in Y. injection Y as <-. unfold wstep1 in Y'. rewrite WX in Y'. discriminate.
Qed.
(* start on a pool in which some thread has not been told to stop *)
Lemma clear_stuck : forall more p0 s i x n k, inv p0 s -> own s = OClear k n -> k <= i -> nth_error (ws s) i = Some x -> shut x = false ->
  exists s' k' x', run more s = Ok s' /\ inv p0 s' /\ own s' = OClear k' n /\ k' <= i /\ nth_error (ws s') i = Some x' /\ shut x' = false.
Proof.
  induction more as [|t more IH]; intros p0 s i x n k I Ho KI X SX; [exists s, k, x; cbn; auto 6|].
  destruct (step_inv p0 s t I) as (s1 & H1 & I1). rewrite (run_cons t s s1) by auto. destruct t as [|j].
  - pose proof (i_w _ _ I i x X) as (_ & _ & C & D). assert (WD : wat x <> WDone) by (intros E; rewrite (C E) in SX; discriminate).
    assert (JX : joinable x = true) by (destruct (joinable x); auto; contradiction (WD (D eq_refl))).
    destruct s as [w l o p lg]. pose proof (i_pc _ _ I) as PC. cbn [own ws] in *. subst o. cbn [step ostep] in H1.
    assert (IL : i < length w) by (apply nth_error_Some; congruence). destruct (Nat.eqb_spec k (length w)) as [->|N]; [lia|].
    unfold oget in H1. destruct (nth_error w k) as [x1|] eqn:X1; [|apply nth_error_None in X1; lia]. cbn [obind] in H1.
    destruct (Nat.eq_dec k i) as [->|Nk].
    + rewrite X in X1. injection X1 as <-. rewrite JX in H1. destruct (wat x) eqn:WX; try contradiction; injection H1 as <-; eapply (IH p0 _ i x n i); eauto.
    + destruct (joinable x1) eqn:J1.
      * destruct (wat x1) eqn:W1; try (injection H1 as <-; eapply (IH p0 _ i x n k); eauto). unfold oset in H1. destruct (Nat.ltb_spec k (length w)); [|lia].
        injection H1 as <-. apply (IH p0 _ i x n (k + 1)); auto; [lia|]. cbn. rewrite nth_error_upd_other; [exact X|congruence].
      * injection H1 as <-. apply (IH p0 _ i x n (k + 1)); auto. lia.
  - destruct (wturn j s s1 H1) as [(-> & NO)|(y & y' & es & Y & Y' & EW & EO)]; [eapply IH; eauto|].
    destruct (Nat.eq_dec j i) as [->|N].
    + rewrite X in Y. injection Y as <-. eapply (IH p0 s1 i y'); eauto; [congruence| |].
      * rewrite EW. apply nth_error_upd_same. apply nth_error_Some. congruence.
      * destruct x as [q b w j]. cbn in SX. subst b. unfold wstep1 in Y'. cbn in Y'. destruct w; try discriminate; try (injection Y' as <- _; reflexivity). destruct q; injection Y' as <- _; reflexivity.
    + eapply (IH p0 s1 i x); eauto; [congruence|]. rewrite EW, nth_error_upd_other; [exact X|congruence].
Qed.
End Proofs.
