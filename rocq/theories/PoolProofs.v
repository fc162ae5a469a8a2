From Verif Require Import Base IndexProofs VecProofs PoolModel PoolSpec.
Section Proofs.
Context {T : Type}.
Implicit Type s : state T.

Definition cur (w : @wpc T) : list T := match w with WRun t => [t] | _ => [] end.
Definition winv (i : nat) (g : list (event T)) (x : wk T) : Prop :=
  given i g = begun i g ++ inq x /\ begun i g = ended i g ++ cur (wat x) /\
  (wat x = WDone -> shut x = true) /\ (joinable x = false -> wat x = WDone).
Definition none (i : nat) (g : list (event T)) : Prop := given i g = [] /\ begun i g = [] /\ ended i g = [].
Record inv (p0 : list (op T)) s : Prop := {
  i_w : forall i x, nth_error (ws s) i = Some x -> winv i (gen (log s)) x;
  i_none : forall i, length (ws s) <= i -> none i (gen (log s));
  i_scan : forall k, own s = OScan k -> forall i x, i < k -> nth_error (ws s) i = Some x -> inq x = [];
  i_set : forall k, own s = OSet k -> forall i x, i < k -> nth_error (ws s) i = Some x -> shut x = true;
  i_wait : forall k, own s = OWait k -> forall i x, nth_error (ws s) i = Some x -> shut x = true /\ (i < k -> joinable x = false);
  i_drained : drained (gen (log s)) -> forall i x, nth_error (ws s) i = Some x -> inq x = [];
  i_joined : forall a b, log s = a ++ EJoined :: b -> drained (gen a) -> forall i, given i (gen a) = ended i (gen a);
  i_prog : returned (log s) ++ calling (own s) ++ prog s = p0;
  i_pc : match own s with OClear k _ | OScan k | OSet k | OWait k => k <= length (ws s) | OIdle => True end;
  i_rr : ws s = [] \/ (targets (gen (log s)) = map (fun k => k mod length (ws s)) (seq 0 (length (targets (gen (log s))))) /\
         lastp s = Z.of_nat ((length (targets (gen (log s))) + length (ws s) - 1) mod length (ws s)) /\
         (Z.of_nat (length (ws s)) < two64)%Z);
  i_used : match own s with OClear _ n => (Z.of_nat n < two64)%Z /\ well_used n (prog s) | _ => well_used (length (ws s)) (prog s) end }.

Lemma gen_snoc : forall (l : list (event T)) e, gen (l ++ [e]) = match e with EStarted _ => [] | _ => gen l ++ [e] end.
Proof. intros. unfold gen. rewrite fold_left_app. reflexivity. Qed.
Lemma gen_app0 : forall (l : list (event T)), gen (l ++ []) = gen l.
Proof. intros. now rewrite app_nil_r. Qed.
Lemma given_snoc : forall i (g : list (event T)) e, given i (g ++ [e]) = given i g ++ match e with EGiven _ j t => if j =? i then [t] else [] | _ => [] end.
Proof. intros. unfold given. rewrite flat_map_app. cbn. now rewrite app_nil_r. Qed.
Lemma begun_snoc : forall i (g : list (event T)) e, begun i (g ++ [e]) = begun i g ++ match e with EBegin j t => if j =? i then [t] else [] | _ => [] end.
Proof. intros. unfold begun. rewrite flat_map_app. cbn. now rewrite app_nil_r. Qed.
Lemma ended_snoc : forall i (g : list (event T)) e, ended i (g ++ [e]) = ended i g ++ match e with EEnd j t => if j =? i then [t] else [] | _ => [] end.
Proof. intros. unfold ended. rewrite flat_map_app. cbn. now rewrite app_nil_r. Qed.
Lemma targets_snoc : forall (g : list (event T)) e, targets (g ++ [e]) = targets g ++ match e with EGiven true j _ => [j] | _ => [] end.
Proof. intros. unfold targets. rewrite flat_map_app. cbn. now rewrite app_nil_r. Qed.
Lemma returned_snoc : forall (g : list (event T)) e, returned (g ++ [e]) = returned g ++ returned [e].
Proof. intros. apply flat_map_app. Qed.
Lemma snoc_split : forall {A} (l : list A) x a y b, l ++ [x] = a ++ y :: b -> (l = a /\ x = y /\ b = []) \/ exists b', l = a ++ y :: b' /\ b = b' ++ [x].
Proof.
  intros A l x a y b H. destruct (rev b) as [|z b'] eqn:E.
  - assert (b = []) by (rewrite <- (rev_involutive b), E; reflexivity). subst b. apply app_inj_tail in H. left. destruct H; auto.
  - assert (B : b = rev b' ++ [z]) by (rewrite <- (rev_involutive b), E; reflexivity). subst b. right.
    rewrite app_comm_cons, app_assoc in H. apply app_inj_tail in H. destruct H as (-> & ->). exists (rev b'). auto.
Qed.
Lemma drained_snoc : forall (g : list (event T)) e, drained (g ++ [e]) -> e = EDrained \/ (drained g /\ is_given e = false).
Proof.
  intros g e (a & b & E & F). destruct (snoc_split _ _ _ _ _ E) as [(-> & -> & ->)|(b' & -> & ->)]; auto.
  right. rewrite forallb_app in F. apply andb_prop in F. destruct F as (F & F2). split; [exists a, b'; auto|]. cbn in F2. destruct (is_given e); auto; discriminate.
Qed.
Lemma not_drained_nil : ~ drained (@nil (event T)).
Proof. intros (a & b & E & _). destruct a; discriminate. Qed.

Lemma joined_snoc : forall (l : list (event T)) e,
  (forall a b, l = a ++ EJoined :: b -> drained (gen a) -> forall i, given i (gen a) = ended i (gen a)) ->
  (e = EJoined -> drained (gen l) -> forall i, given i (gen l) = ended i (gen l)) ->
  forall a b, l ++ [e] = a ++ EJoined :: b -> drained (gen a) -> forall i, given i (gen a) = ended i (gen a).
Proof. intros l e H N a b E. destruct (snoc_split _ _ _ _ _ E) as [(-> & -> & ->)|(b' & -> & ->)]; eauto. Qed.

Lemma nth_upd : forall {A} (l : list A) i j (x y : A), nth_error (upd l i x) j = Some y -> (i = j /\ y = x /\ i < length l) \/ (i <> j /\ nth_error l j = Some y).
Proof.
  intros A l i j x y H. destruct (Nat.eq_dec i j) as [->|N].
  - left. assert (L : j < length l). { rewrite <- (upd_length _ l j x). apply nth_error_Some. congruence. }
    rewrite nth_error_upd_same in H by auto. injection H as <-. auto.
  - right. rewrite nth_error_upd_other in H by auto. auto.
Qed.

(* a change of one worker that keeps its queue and position *)
Lemma upd_same_inv : forall (w : list (wk T)) i x y (P : nat -> wk T -> Prop),
  nth_error w i = Some x -> P i y -> (forall j z, nth_error w j = Some z -> P j z) -> forall j z, nth_error (upd w i y) j = Some z -> P j z.
Proof. intros w i x y P H Py A j z Hz. destruct (nth_upd _ _ _ _ _ Hz) as [(<- & -> & _)|(N & Hz')]; auto. Qed.

(* --- a worker moves ------------------------------------------------------------------- *)
Lemma wstep1_inv : forall i g x y es, winv i g x -> wstep1 i x = Some (y, es) ->
  winv i (g ++ es) y /\ joinable y = joinable x /\ shut y = shut x /\ (inq x = [] -> inq y = []) /\
  (joinable x = false -> False) /\
  (es = [] \/ exists t, es = [EBegin i t] \/ es = [EEnd i t]).
Proof.
  intros i g [q b w j] y es (A & B & C & D) H. unfold wstep1 in H. cbn [inq shut wat joinable] in *. destruct w as [| |t|]; [| | |discriminate].
  - injection H as <- <-. rewrite app_nil_r. unfold winv. cbn [inq shut wat joinable]. repeat split; auto.
    + destruct b; exact B.
    + destruct b; auto; discriminate.
    + intros F. specialize (D F). discriminate.
    + intros F. specialize (D F). discriminate.
  - destruct q as [|t q]; injection H as <- <-; unfold winv; cbn [inq shut wat joinable].
    + rewrite app_nil_r. repeat split; auto; try discriminate; intros F; specialize (D F); discriminate.
    + rewrite given_snoc, begun_snoc, ended_snoc, Nat.eqb_refl. rewrite !app_nil_r. cbn [cur] in *. rewrite app_nil_r in B.
      repeat split; auto; try discriminate; try (intros F; specialize (D F); discriminate); eauto.
      * rewrite A. now rewrite <- app_assoc.
      * now rewrite B.
  - injection H as <- <-. unfold winv. cbn [inq shut wat joinable]. rewrite given_snoc, begun_snoc, ended_snoc, Nat.eqb_refl. rewrite !app_nil_r. cbn [cur] in *.
    repeat split; auto; try discriminate; try (intros F; specialize (D F); discriminate); eauto; try (now rewrite B, app_nil_r).
Qed.
Lemma other_snoc : forall i j (g : list (event T)) es, i <> j -> (es = [] \/ exists t, es = [EBegin i t] \/ es = [EEnd i t]) ->
  given j (g ++ es) = given j g /\ begun j (g ++ es) = begun j g /\ ended j (g ++ es) = ended j g.
Proof.
  intros i j g es N [->|(t & [->| ->])]; rewrite ?app_nil_r; auto; rewrite given_snoc, begun_snoc, ended_snoc;
    destruct (Nat.eqb_spec i j); try contradiction; rewrite !app_nil_r; auto.
Qed.
Lemma wstep_inv : forall p0 i s s', inv p0 s -> wstep i s = Some s' -> inv p0 s'.
Proof.
  intros p0 i [w l o p lg] s' [A B C D E F G H I K L] HW. unfold wstep in HW. cbn [ws lastp own prog log] in *.
  destruct (nth_error w i) as [x|] eqn:X; [|discriminate]. destruct (wstep1 i x) as [(y, es)|] eqn:W1; [|discriminate]. injection HW as <-.
  assert (IL : i < length w) by (apply nth_error_Some; congruence).
  destruct (wstep1_inv i _ x y es (A i x X) W1) as (Y & YJ & YS & YQ & YF & ES).
  assert (GE : gen (lg ++ es) = gen lg ++ es).
  { destruct ES as [->|(t & [->| ->])]; rewrite ?app_nil_r, ?gen_snoc; auto. }
  assert (TG : targets (gen lg ++ es) = targets (gen lg)).
  { destruct ES as [->|(t & [->| ->])]; rewrite ?app_nil_r, ?targets_snoc, ?app_nil_r; auto. }
  split; cbn [ws lastp own prog log]; rewrite ?upd_length, ?GE, ?TG; auto.
  - intros j z Hz. destruct (nth_upd _ _ _ _ _ Hz) as [(<- & -> & _)|(N & Hz')]; [exact Y|].
    destruct (other_snoc i j (gen lg) es N ES) as (e1 & e2 & e3). unfold winv. rewrite e1, e2, e3. apply A, Hz'.
  - intros j LJ. destruct (other_snoc i j (gen lg) es ltac:(lia) ES) as (e1 & e2 & e3). unfold none. rewrite e1, e2, e3. apply B, LJ.
  - intros k Ho j z Lj Hz. destruct (nth_upd _ _ _ _ _ Hz) as [(<- & -> & _)|(N & Hz')]; [|eauto]. apply YQ. eauto.
  - intros k Ho j z Lj Hz. destruct (nth_upd _ _ _ _ _ Hz) as [(<- & -> & _)|(N & Hz')]; [|eauto]. rewrite YS. eauto.
  - intros k Ho j z Hz. destruct (nth_upd _ _ _ _ _ Hz) as [(<- & -> & _)|(N & Hz')]; [|eauto]. rewrite YS, YJ. eauto.
  - intros DR j z Hz. assert (DR' : drained (gen lg)).
    { destruct ES as [->|(t & [->| ->])]; rewrite ?app_nil_r in DR; auto; apply drained_snoc in DR; destruct DR as [?|(? & _)]; auto; discriminate. }
    destruct (nth_upd _ _ _ _ _ Hz) as [(<- & -> & _)|(N & Hz')]; [|eauto]. apply YQ. eauto.
  - destruct ES as [->|(t & [->| ->])]; [rewrite app_nil_r; auto| |]; apply joined_snoc; auto; discriminate.
  - rewrite <- H. destruct ES as [->|(t & [->| ->])]; [now rewrite app_nil_r| |]; rewrite returned_snoc; cbn; now rewrite app_nil_r.
  - destruct K as [->|K]; [destruct i; discriminate|auto].
Qed.

(* --- the owner moves ------------------------------------------------------------------- *)
Lemma upd_winv : forall (w : list (wk T)) k x y g, nth_error w k = Some x ->
  inq y = inq x -> wat y = wat x -> (shut x = true -> shut y = true) -> (joinable y = false -> wat x = WDone) ->
  (forall i z, nth_error w i = Some z -> winv i g z) -> forall i z, nth_error (upd w k y) i = Some z -> winv i g z.
Proof.
  intros w k x y g X Eq Ew Es Ej A i z Hz. destruct (nth_upd _ _ _ _ _ Hz) as [(<- & -> & _)|(N & Hz')]; auto.
  destruct (A k x X) as (A1 & A2 & A3 & A4). unfold winv. rewrite Eq, Ew. split; [|split; [|split]]; auto.
Qed.
Lemma map_seq_snoc : forall {B} (f : nat -> B) n, map f (seq 0 (n + 1)) = map f (seq 0 n) ++ [f n].
Proof. intros. rewrite seq_app, map_app. reflexivity. Qed.

Lemma give_ok : forall p0 (auto : bool) (w : list (wk T)) l l' o p lg i t, i < length w ->
  inv p0 (State w l OIdle (o :: p) lg) -> (o = if auto then Process t else ProcessTo i t) ->
  (targets (gen lg ++ [EGiven auto i t]) = map (fun k => k mod length w) (seq 0 (length (targets (gen lg ++ [EGiven auto i t])))) /\
   l' = Z.of_nat ((length (targets (gen lg ++ [EGiven auto i t])) + length w - 1) mod length w)) ->
  exists s', give auto w i t l' p lg = Ok s' /\ inv p0 s'.
Proof.
  intros p0 auto w l l' o p lg i t IL [A B C D E F G H I K L] Ho RR. unfold give, oget, oset. cbn [ws lastp own prog log] in *.
  destruct (nth_error w i) as [x|] eqn:X; [|apply nth_error_None in X; lia]. cbn [obind].
  destruct (Nat.ltb_spec i (length w)); [|lia]. cbn [obind]. eexists. split; [reflexivity|].
  split; cbn [ws lastp own prog log]; rewrite ?upd_length, ?gen_snoc; auto; try discriminate.
  - intros j z Hz. destruct (nth_upd _ _ _ _ _ Hz) as [(<- & -> & _)|(N & Hz')].
    + destruct (A i x X) as (A1 & A2 & A3 & A4). unfold winv. rewrite given_snoc, begun_snoc, ended_snoc, Nat.eqb_refl, !app_nil_r. cbn [inq shut wat joinable].
      repeat split; auto. rewrite A1. now rewrite app_assoc.
    + destruct (A j z Hz') as (A1 & A2 & A3 & A4). unfold winv. rewrite given_snoc, begun_snoc, ended_snoc. destruct (Nat.eqb_spec i j); [contradiction|].
      rewrite !app_nil_r. auto.
  - intros j LJ. destruct (B j LJ) as (B1 & B2 & B3). unfold none. rewrite given_snoc, begun_snoc, ended_snoc. destruct (Nat.eqb_spec i j); [lia|].
    rewrite !app_nil_r. auto.
  - intros DR. apply drained_snoc in DR. destruct DR as [?|(_ & ?)]; discriminate.
  - apply joined_snoc; auto. discriminate.
  - rewrite <- H, returned_snoc, <- app_assoc. rewrite Ho. destruct auto; reflexivity.
  - destruct K as [->|(K1 & K2 & K3)]; [cbn in IL; lia|]. right. destruct RR. auto.
  - cbn in L. rewrite Ho in L. destruct auto; apply L.
Qed.

Lemma ostep_inv : forall p0 s, inv p0 s -> exists r, ostep s = Ok r /\ forall s', r = Some s' -> inv p0 s'.
Proof.
  intros p0 [w l o p lg] IV. pose proof IV as [A B C D E F G H I K L]. cbn [ws lastp own prog log ostep] in *. destruct o as [|k n|k|k|k].
  - destruct p as [|[n|t|i t| |] p]; [exists None; split; [reflexivity|discriminate]| | | | |]; cbn [well_used] in L.
    + eexists. split; [reflexivity|]. intros s' Es. injection Es as <-. split; cbn [ws lastp own prog log calling app] in *; auto; try discriminate. lia.
    + destruct K as [->|(K1 & K2 & K3)]; [cbn in L; lia|]. set (n := length (targets (gen lg))) in *.
      set (l2 := if (Z.of_nat (length w) <=? wrap64 (l + 1))%Z then 0%Z else wrap64 (l + 1)).
      assert (LW : 0 < length w) by lia. pose proof (Nat.mod_upper_bound (n + length w - 1) (length w) ltac:(lia)) as MU.
      assert (MM : n mod length w = (S ((n + length w - 1) mod length w)) mod length w).
      { rewrite <- (Nat.add_1_r (_ mod _)). rewrite Nat.add_mod_idemp_l by lia. replace (n + length w - 1 + 1) with (n + 1 * length w) by lia. now rewrite Nat.mod_add by lia. }
      assert (MS : l2 = Z.of_nat (n mod length w)).
      { unfold l2. rewrite K2, MM. clear K2 MM l2. revert MU. generalize ((n + length w - 1) mod length w). intros r MU.
        rewrite wrap64_small by (unfold two64 in *; lia).
        destruct (Z.leb_spec (Z.of_nat (length w)) (Z.of_nat r + 1)).
        - replace (S r) with (length w) by lia. rewrite Nat.mod_same by lia. reflexivity.
        - rewrite Nat.mod_small by lia. lia. }
      destruct (give_ok p0 true w l l2 (Process t) p lg (Z.to_nat l2) t) as (s' & E' & I'); auto.
      * rewrite MS, Nat2Z.id. apply Nat.mod_upper_bound. lia.
      * rewrite targets_snoc, app_length. fold n. cbn [length]. rewrite map_seq_snoc, <- K1, MS, Nat2Z.id. split; [reflexivity|].
        f_equal. replace (n + 1 + length w - 1) with (n + 1 * length w) by lia. now rewrite Nat.mod_add by lia.
      * unfold omap. rewrite E'. cbn [obind]. eexists. split; [reflexivity|]. intros s2 Es. injection Es as <-. exact I'.
    + destruct L as (L1 & L2). destruct (give_ok p0 false w l l (ProcessTo i t) p lg i t) as (s' & E' & I'); auto.
      * rewrite targets_snoc, app_nil_r. destruct K as [->|(K1 & K2 & K3)]; [cbn in L1; lia|auto].
      * unfold omap. rewrite E'. cbn [obind]. eexists. split; [reflexivity|]. intros s2 Es. injection Es as <-. exact I'.
    + eexists. split; [reflexivity|]. intros s' Es. injection Es as <-. split; cbn [ws lastp own prog log calling app] in *; auto; try discriminate; try lia.
      intros k0 E0 i x LI. injection E0 as <-. lia.
    + eexists. split; [reflexivity|]. intros s' Es. injection Es as <-. split; cbn [ws lastp own prog log calling app] in *; auto; try discriminate; try lia.
      intros k0 E0 i x LI. injection E0 as <-. lia.
  - (* clear *)
    destruct (Nat.eqb_spec k (length w)) as [->|Nk].
    + eexists. split; [reflexivity|]. intros s' Es. injection Es as <-. split; cbn [ws lastp own prog log calling app] in *; rewrite ?gen_snoc, ?repeat_length; auto; try discriminate.
      * intros i x Hx. apply nth_error_In, repeat_spec in Hx. subst x. unfold winv. cbn. repeat split; auto; discriminate.
      * intros i _. unfold none. cbn. auto.
      * intros DR. contradiction (not_drained_nil DR).
      * apply joined_snoc; auto. discriminate.
      * rewrite <- H, returned_snoc, <- app_assoc. reflexivity.
      * destruct n as [|n]; [now left|]. right. cbn [targets flat_map length seq map]. split; [reflexivity|]. destruct L as (L & _). split; [|exact L].
        rewrite Nat.add_0_l, Nat.mod_small by lia. rewrite wrap64_small by lia. lia.
      * apply L.
    + unfold oget. destruct (nth_error w k) as [x|] eqn:X; [|apply nth_error_None in X; lia]. cbn [obind].
      destruct (joinable x) eqn:J.
      * destruct (wat x) eqn:WX; try (exists None; split; [reflexivity|discriminate]). unfold oset. destruct (Nat.ltb_spec k (length w)); [|lia]. cbn [obind].
        eexists. split; [reflexivity|]. intros s' Es. injection Es as <-. split; cbn [ws lastp own prog log calling app] in *; rewrite ?upd_length; auto; try discriminate; try lia.
        -- eapply upd_winv; eauto.
        -- intros DR i z Hz. destruct (nth_upd _ _ _ _ _ Hz) as [(<- & -> & _)|(N & Hz')]; cbn; eauto.
        -- destruct K as [->|K]; [destruct k; discriminate|auto].
      * eexists. split; [reflexivity|]. intros s' Es. injection Es as <-. split; cbn [ws lastp own prog log calling app] in *; auto; try discriminate; try lia.
  - (* scan *)
    destruct (Nat.eqb_spec k (length w)) as [->|Nk].
    + eexists. split; [reflexivity|]. intros s' Es. injection Es as <-. split; cbn [ws lastp own prog log calling app] in *; rewrite ?gen_snoc; auto; try discriminate.
      * intros i x Hx. unfold winv. rewrite given_snoc, begun_snoc, ended_snoc, !app_nil_r. apply A, Hx.
      * intros i Li. unfold none. rewrite given_snoc, begun_snoc, ended_snoc, !app_nil_r. apply B, Li.
      * intros _ i x Hx. eapply C; eauto. apply nth_error_Some. congruence.
      * apply joined_snoc; auto. discriminate.
      * rewrite <- H, returned_snoc, <- app_assoc. reflexivity.
      * rewrite targets_snoc, app_nil_r. exact K.
    + unfold oget. destruct (nth_error w k) as [x|] eqn:X; [|apply nth_error_None in X; lia]. cbn [obind].
      eexists. split; [reflexivity|]. intros s' Es. injection Es as <-. destruct (Nat.ltb_spec 0 (length (inq x))) as [LQ|LQ];
        (split; cbn [ws lastp own prog log calling app] in *; auto; try discriminate; try lia).
      * intros k0 E0 i y Li. injection E0 as <-. lia.
      * intros k0 E0 i y Li Hy. injection E0 as <-. destruct (Nat.eq_dec i k) as [->|Ni]; [|eapply C; eauto; lia].
        rewrite X in Hy. injection Hy as <-. destruct (inq x); auto. cbn in LQ. lia.
  - (* set *)
    destruct (Nat.eqb_spec k (length w)) as [->|Nk].
    + eexists. split; [reflexivity|]. intros s' Es. injection Es as <-. split; cbn [ws lastp own prog log calling app] in *; auto; try discriminate; try lia.
      intros k0 E0 i x Hx. injection E0 as <-. split; [|lia]. eapply D; eauto. apply nth_error_Some. congruence.
    + unfold oget. destruct (nth_error w k) as [x|] eqn:X; [|apply nth_error_None in X; lia]. cbn [obind].
      unfold oset. destruct (Nat.ltb_spec k (length w)); [|lia]. cbn [obind].
      eexists. split; [reflexivity|]. intros s' Es. injection Es as <-. destruct (A k x X) as (_ & _ & _ & A4).
      split; cbn [ws lastp own prog log calling app] in *; rewrite ?upd_length; auto; try discriminate; try lia.
      * eapply upd_winv; eauto.
      * intros k0 E0 i z Li Hz. injection E0 as <-. destruct (nth_upd _ _ _ _ _ Hz) as [(<- & -> & _)|(N & Hz')]; cbn; auto. eapply D; eauto. lia.
      * intros DR i z Hz. destruct (nth_upd _ _ _ _ _ Hz) as [(<- & -> & _)|(N & Hz')]; cbn; eauto.
      * destruct K as [->|K]; [destruct k; discriminate|auto].
  - (* wait *)
    destruct (Nat.eqb_spec k (length w)) as [->|Nk].
    + eexists. split; [reflexivity|]. intros s' Es. injection Es as <-. split; cbn [ws lastp own prog log calling app] in *; rewrite ?gen_snoc; auto; try discriminate.
      * intros i x Hx. unfold winv. rewrite given_snoc, begun_snoc, ended_snoc, !app_nil_r. apply A, Hx.
      * intros i Li. unfold none. rewrite given_snoc, begun_snoc, ended_snoc, !app_nil_r. apply B, Li.
      * intros DR. apply drained_snoc in DR. destruct DR as [?|(DR & _)]; [discriminate|exact (F DR)].
      * apply joined_snoc; auto. intros _ DR i. destruct (nth_error w i) as [x|] eqn:X.
        -- assert (i < length w) by (apply nth_error_Some; congruence). destruct (A i x X) as (A1 & A2 & A3 & A4). destruct (E _ eq_refl i x X) as (_ & E2).
           rewrite A1, A2, (F DR i x X), (A4 (E2 H0)). cbn. now rewrite !app_nil_r.
        -- apply nth_error_None in X. destruct (B i X) as (B1 & B2 & B3). congruence.
      * rewrite <- H, returned_snoc, <- app_assoc. reflexivity.
      * rewrite targets_snoc, app_nil_r. exact K.
    + unfold oget. destruct (nth_error w k) as [x|] eqn:X; [|apply nth_error_None in X; lia]. cbn [obind].
      destruct (joinable x) eqn:J.
      * destruct (wat x) eqn:WX; try (exists None; split; [reflexivity|discriminate]). unfold oset. destruct (Nat.ltb_spec k (length w)); [|lia]. cbn [obind].
        eexists. split; [reflexivity|]. intros s' Es. injection Es as <-. split; cbn [ws lastp own prog log calling app] in *; rewrite ?upd_length; auto; try discriminate; try lia.
        -- eapply upd_winv; eauto.
        -- intros k0 E0 i z Hz. injection E0 as <-. destruct (nth_upd _ _ _ _ _ Hz) as [(<- & -> & _)|(N & Hz')]; cbn.
           ++ destruct (E _ eq_refl k x X). auto.
           ++ destruct (E _ eq_refl i z Hz'). split; auto. intros. apply H2. lia.
        -- intros DR i z Hz. destruct (nth_upd _ _ _ _ _ Hz) as [(<- & -> & _)|(N & Hz')]; cbn; eauto.
        -- destruct K as [->|K]; [destruct k; discriminate|auto].
      * eexists. split; [reflexivity|]. intros s' Es. injection Es as <-. split; cbn [ws lastp own prog log calling app] in *; auto; try discriminate; try lia.
        intros k0 E0 i z Hz. injection E0 as <-. destruct (E _ eq_refl i z Hz) as (E1 & E2). split; auto. intros Li.
        destruct (Nat.eq_dec i k) as [->|Ni]; [congruence|]. apply E2. lia.
Qed.
Lemma init_inv : forall p, well_used 0 p -> inv p (init p).
Proof.
  intros p U. split; cbn; auto; try discriminate.
  - intros [|i] x; discriminate.
  - intros i _. unfold none. cbn. auto.
  - intros DR. contradiction (not_drained_nil DR).
  - intros [|a l] b; discriminate.
Qed.
Lemma step_inv : forall p0 s t, inv p0 s -> exists s', step s t = Ok s' /\ inv p0 s'.
Proof.
  intros p0 s t I. destruct t as [|i]; cbn [step].
  - destruct (ostep_inv p0 s I) as ([s'|] & -> & H); cbn [obind]; eauto.
  - eexists. split; [reflexivity|]. destruct (wstep i s) eqn:E; auto. eapply wstep_inv; eauto.
Qed.
Lemma run_inv : forall sched p0 s, inv p0 s -> exists s', run sched s = Ok s' /\ inv p0 s'.
Proof.
  unfold run. induction sched as [|t sched IH]; intros p0 s I; cbn [ofold]; eauto.
  destruct (step_inv p0 s t I) as (s1 & -> & I1). cbn [obind]. auto.
Qed.
End Proofs.
