From Verif Require Import Base WorkerModel WorkerSpec.
Section Proofs.
Context {J : Type}.
Implicit Type s : state J.

Definition current (w : @wpc J) : list J := match w with WRun j => [j] | _ => [] end.
Record inv (p0 : list (mop J)) s : Prop := {
  i_push : pushes (log s) = starts (log s) ++ queue s;
  i_cur : starts (log s) = ends (log s) ++ current (worker s);
  i_prog : returned (log s) ++ calling (owner s) ++ prog s = p0;
  i_none : worker s = WNone -> queue s = [];
  i_top2 : worker s = WTop2 -> stop s = true;
  i_done : worker s = WDone -> stop s = true /\ queue s = [];
  i_stop : stop s = true <-> owner s = MJoin \/ owner s = MReset;
  i_reset : owner s = MReset -> worker s = WNone;
  i_join : owner s = MJoin -> worker s <> WNone;
  i_pushing : forall j, owner s = MPushing j -> worker s <> WNone;
  i_wait : forall a b, log s = a ++ EWaited :: b -> ends a = pushes a }.

Lemma snoc_split : forall {A} (l : list A) x a y b, l ++ [x] = a ++ y :: b -> (l = a /\ x = y /\ b = []) \/ exists b', l = a ++ y :: b'.
Proof.
  intros A l x a y b H. destruct (rev b) as [|z b'] eqn:E.
  - assert (b = []) by (rewrite <- (rev_involutive b), E; reflexivity). subst b. apply app_inj_tail in H. left. destruct H; auto.
  - assert (B : b = rev b' ++ [z]) by (rewrite <- (rev_involutive b), E; reflexivity). subst b. right.
    rewrite app_comm_cons, app_assoc in H. apply app_inj_tail in H. destruct H as (-> & _). exists (rev b'). reflexivity.
Qed.
Lemma wait_snoc : forall (l : list (event J)) e, (forall a b, l = a ++ EWaited :: b -> ends a = pushes a) ->
  (e = EWaited -> ends l = pushes l) -> forall a b, l ++ [e] = a ++ EWaited :: b -> ends a = pushes a.
Proof. intros l e H N a b E. destruct (snoc_split _ _ _ _ _ E) as [(-> & -> & ->)|(b' & ->)]; eauto. Qed.

Ltac sim := unfold pushes, starts, ends, returned in *; cbn [queue stop worker owner prog log current calling] in *; rewrite ?flat_map_app in *; cbn [flat_map app] in *; rewrite ?app_nil_r in *.
Lemma mstep_inv : forall p0 s s', inv p0 s -> mstep s = Some s' -> inv p0 s'.
Proof.
  intros p0 [q b w m p lg] s' [A B C D E F G H I K L] HM. cbn [mstep queue stop worker owner prog log] in *.
  destruct m as [|j| |].
  - destruct p as [|[j|] p]; [discriminate| |].
    + injection HM as <-. assert (W : match w with WNone => WTop | _ => w end <> WNone) by (destruct w; discriminate).
      split; cbn [queue stop worker owner prog log calling] in *; auto; try discriminate; try (intros; discriminate).
      * destruct w; auto.
      * intros W0. congruence.
      * destruct w; try discriminate; auto.
      * destruct w; try discriminate; auto.
      * split; [|intros [?|?]; discriminate]. intros S. apply G in S. destruct S; discriminate.
    + assert (HW : w <> WNone -> inv p0 (State q true w MJoin p lg)).
      { intros NW. split; cbn [queue stop worker owner prog log calling] in *; auto; try discriminate; try (intros; discriminate).
        - intros WD. apply F in WD. tauto.
        - split; auto. }
      assert (E' : forall w', w' <> WNone -> w = w' -> Some (State q true w MJoin p lg) = Some s' -> inv p0 s').
      { intros w' N -> X. injection X as <-. auto. }
      destruct w; try (eapply E'; [|reflexivity|exact HM]; discriminate).
      injection HM as <-. clear E' HW. assert (SW : ends lg = pushes lg).
      { rewrite A, B, D by reflexivity. cbn. now rewrite !app_nil_r. }
      split; cbn [queue stop worker owner prog log calling] in *; auto; try discriminate; try (intros; discriminate).
      * sim. exact A.
      * sim. exact B.
      * rewrite <- C. unfold returned. rewrite flat_map_app. cbn. now rewrite <- app_assoc.
      * apply wait_snoc; auto.
  - injection HM as <-. assert (NW := K j eq_refl).
    split; cbn [queue stop worker owner prog log calling] in *; auto; try discriminate; try (intros; discriminate).
    + sim. rewrite A. now rewrite app_assoc.
    + sim. exact B.
    + rewrite <- C. unfold returned. rewrite flat_map_app. cbn. now rewrite <- app_assoc.
    + contradiction.
    + intros WD. destruct (F WD) as (S & _). apply G in S. destruct S; discriminate.
    + split; [|intros [?|?]; discriminate]. intros S. apply G in S. destruct S; discriminate.
    + apply wait_snoc; auto. discriminate.
  - destruct w; try discriminate. injection HM as <-. destruct (F eq_refl) as (S & Q).
    split; cbn [queue stop worker owner prog log calling] in *; auto; try discriminate; try (intros; discriminate).
    split; auto.
  - injection HM as <-. assert (W := H eq_refl). subst w. assert (SW : ends lg = pushes lg).
    { rewrite A, B, D by reflexivity. cbn. now rewrite !app_nil_r. }
    split; cbn [queue stop worker owner prog log calling] in *; auto; try discriminate; try (intros; discriminate).
    + sim. exact A.
    + sim. exact B.
    + rewrite <- C. unfold returned. rewrite flat_map_app. cbn. now rewrite <- app_assoc.
    + split; [discriminate|intros [?|?]; discriminate].
    + apply wait_snoc; auto.
Qed.
Lemma wstep_inv : forall p0 s s', inv p0 s -> wstep s = Some s' -> inv p0 s'.
Proof.
  intros p0 [q b w m p lg] s' [A B C D E F G H I K L] HM. cbn [wstep queue stop worker owner prog log] in *.
  destruct w as [| | | |j| |]; try discriminate.
  - injection HM as <-. split; cbn [queue stop worker owner prog log calling] in *; auto; try discriminate; try (intros; discriminate); try (destruct b; auto; discriminate).
    intros R. specialize (H R). discriminate.
  - injection HM as <-. split; cbn [queue stop worker owner prog log calling] in *; auto; try discriminate; try (intros; discriminate); try (destruct q; auto; discriminate).
    intros R. specialize (H R). discriminate.
  - destruct q as [|j q]; injection HM as <-.
    + split; cbn [queue stop worker owner prog log calling] in *; auto; try discriminate; try (intros; discriminate). intros R. specialize (H R). discriminate.
    + split; cbn [queue stop worker owner prog log calling] in *; auto; try discriminate; try (intros; discriminate).
      * sim. rewrite A. now rewrite <- app_assoc.
      * sim. now rewrite B.
      * sim. exact C.
      * intros R. specialize (H R). discriminate.
      * apply wait_snoc; auto. discriminate.
  - injection HM as <-. split; cbn [queue stop worker owner prog log calling] in *; auto; try discriminate; try (intros; discriminate).
    + sim. exact A.
    + sim. now rewrite B.
    + sim. exact C.
    + intros R. specialize (H R). discriminate.
    + apply wait_snoc; auto. discriminate.
  - injection HM as <-. split; cbn [queue stop worker owner prog log calling] in *; auto; try discriminate; try (intros; discriminate).
    intros R. specialize (H R). discriminate.
Qed.
Lemma init_inv : forall p, inv p (init p).
Proof. intros p. split; cbn; auto; try discriminate. split; [discriminate|intros [?|?]; discriminate]. destruct a; discriminate. Qed.
Lemma step_inv : forall p0 s t, inv p0 s -> inv p0 (step s t).
Proof.
  intros p0 s t I. unfold step. destruct t; [destruct (mstep s) eqn:E|destruct (wstep s) eqn:E]; auto; [eapply mstep_inv|eapply wstep_inv]; eauto.
Qed.
Lemma run_inv : forall sched p0 s, inv p0 s -> inv p0 (run sched s).
Proof. unfold run. induction sched; cbn; intros; auto. apply IHsched, step_inv. auto. Qed.

(* --- wait terminates ------------------------------------------------------------------ *)
Definition wleft s : nat :=
  2 * length (queue s) +
  match worker s with
  | WNone | WDone => 0 | WPop => 4 | WRun _ => 5
  | WTop2 => match queue s with [] => 1 | _ => 5 end
  | WTop => match queue s with [] => 2 | _ => 6 end
  | WSleep => match queue s with [] => 3 | _ => 7 end
  end.
(* while the owner is in join, every step of the worker brings it closer to the end *)
Lemma join_progress : forall p0 s, inv p0 s -> owner s = MJoin -> worker s <> WDone ->
  exists s', wstep s = Some s' /\ owner s' = MJoin /\ wleft s' < wleft s.
Proof.
  intros p0 [q b w m p lg] I HO ND. pose proof (i_join _ _ I HO) as NN. pose proof (proj2 (i_stop _ _ I) (or_introl HO)) as SB.
  cbn [queue stop worker owner prog log wstep] in *. subst b m.
  destruct w as [| | | |j| |]; try contradiction; destruct q as [|j' q]; eexists; (split; [reflexivity|]); (split; [reflexivity|]); unfold wleft; cbn; lia.
Qed.
Lemma join_stuck : forall s, owner s = MJoin -> worker s <> WDone -> mstep s = None.
Proof. intros [q b w m p lg] HO ND. cbn in *. subst m. destruct w; auto. contradiction. Qed.
Lemma join_ends : forall sched p0 s, inv p0 s -> owner s = MJoin -> wleft s <= wturns sched ->
  exists s1 s2 : list turn, sched = s1 ++ s2 /\ owner (run s1 s) = MJoin /\ worker (run s1 s) = WDone.
Proof.
  induction sched as [|t sched IH]; intros p0 s I HO L.
  - exists [], []. split; auto. split; auto. destruct s as [q b w m p lg]. unfold wleft, wturns in L. cbn in *.
    destruct w; auto; destruct q; cbn in L; try lia. subst m. contradiction (i_join _ _ I eq_refl). reflexivity.
  - assert (DD : worker s = WDone \/ worker s <> WDone) by (destruct (worker s); auto; right; discriminate).
    destruct DD as [D|D]; [exists [], (t :: sched); auto|].
    destruct t.
    + destruct (IH p0 s I HO) as (s1 & s2 & -> & A & B); [exact L|]. exists (M :: s1), s2. split; [reflexivity|].
      unfold run in *. cbn [fold_left]. unfold step at 2 4. rewrite (join_stuck s HO D). auto.
    + destruct (join_progress p0 s I HO D) as (s' & E & HO' & L'). destruct (IH p0 s') as (s1 & s2 & -> & A & B); auto.
      * eapply wstep_inv; eauto.
      * unfold wturns in *. cbn [filter length] in L. lia.
      * exists (W :: s1), s2. split; [reflexivity|]. unfold run in *. cbn [fold_left]. unfold step at 2 4. rewrite E. auto.
Qed.
End Proofs.
