(* Proofs on regular expressions. *)
From Coq Require Import Ascii String Lia.
From Verif Require Import Base RegModel RegSpec.
Local Open Scope list_scope.
Local Open Scope nat_scope.

Lemma app_nil_inv {A} (s t : list A) : [] = s ++ t -> s = [] /\ t = [].
Proof. intros E. symmetry in E. apply app_eq_nil in E. exact E. Qed.
Lemma nullable_ok r : nullable r = true <-> lang r [].
Proof.
  induction r as [| |f|a IHa b IHb|a IHa b IHb|a IHa]; cbn [nullable].
  - split; [constructor|reflexivity].
  - split; [discriminate|]. intros L. inversion L.
  - split; [discriminate|]. intros L. inversion L.
  - rewrite Bool.andb_true_iff, IHa, IHb. split.
    + intros [A B]. change (@nil ascii) with (@nil ascii ++ []). constructor; assumption.
    + intros L. inversion L as [| |? ? s t A B E1 E2| | | |]. subst. apply app_eq_nil in E2. destruct E2 as [-> ->]. auto.
  - rewrite Bool.orb_true_iff, IHa, IHb. split; [intros [A|B]; [apply l_left|apply l_right]; assumption|].
    intros L. inversion L; auto.
  - split; [constructor|reflexivity].
Qed.

Lemma star_cons a u : lang (Star a) u -> forall c s, u = c :: s -> exists s1 s2, s = s1 ++ s2 /\ lang a (c :: s1) /\ lang (Star a) s2.
Proof.
  intros L. remember (Star a) as r eqn:Er. revert a Er.
  induction L as [| | | | |a0|a0 s t A _ B IH]; intros a1 Er e u0 E; try discriminate Er; try discriminate E.
  injection Er as ->. destruct s as [|d s]; cbn [app] in E.
  - apply (IH a1 eq_refl e u0 E).
  - injection E as -> <-. exists s, t. auto.
Qed.
Lemma deriv_ok r c s : lang (deriv c r) s <-> lang r (c :: s).
Proof.
  revert s. induction r as [| |f|a IHa b IHb|a IHa b IHb|a IHa]; intros s; cbn [deriv].
  - split; intros L; inversion L.
  - split; intros L; inversion L.
  - destruct (f c) eqn:E; split; intros L.
    + inversion L; subst. constructor. exact E.
    + inversion L; subst. constructor.
    + inversion L.
    + inversion L; subst. congruence.
  - assert (G : lang (Seq (deriv c a) b) s -> lang (Seq a b) (c :: s)).
    { intros L. inversion L as [| |? ? s1 t A B E1 E2| | | |]. subst. change (c :: s1 ++ t) with ((c :: s1) ++ t). constructor; [apply IHa, A|exact B]. }
    assert (H : lang (Seq a b) (c :: s) -> lang (Seq (deriv c a) b) s \/ (lang a [] /\ lang (deriv c b) s)).
    { intros L. inversion L as [| |? ? s1 t A B E1 E2| | | |]. subst. destruct s1 as [|d s1]; cbn [app] in E2.
      - subst. right. split; [exact A|apply IHb, B].
      - injection E2 as -> <-. left. constructor; [apply IHa, A|exact B]. }
    destruct (nullable a) eqn:E.
    + apply nullable_ok in E. split.
      * intros L. inversion L; subst; [apply G; assumption|]. change (c :: s) with ([] ++ c :: s). constructor; [exact E|apply IHb; assumption].
      * intros L. apply H in L. destruct L as [L|[_ L]]; [apply l_left|apply l_right]; exact L.
    + split; [exact G|]. intros L. apply H in L. destruct L as [L|[L _]]; [exact L|]. apply nullable_ok in L. congruence.
  - split; intros L; inversion L; subst.
    + apply l_left, IHa. assumption.
    + apply l_right, IHb. assumption.
    + apply l_left, IHa. assumption.
    + apply l_right, IHb. assumption.
  - split; intros L.
    + inversion L as [| |? ? s1 t A B E1 E2| | | |]. subst. change (c :: s1 ++ t) with ((c :: s1) ++ t). constructor; [apply IHa, A|exact B].
    + destruct (star_cons _ _ L c s eq_refl) as (s1 & s2 & -> & A & B). constructor; [apply IHa, A|exact B].
Qed.
Lemma accepts_ok s : forall r, accepts r s = true <-> lang r s.
Proof. induction s as [|c s IH]; intros r; cbn [accepts]; [apply nullable_ok|]. rewrite IH. apply deriv_ok. Qed.

Lemma longest_some s : forall r n, longest r s = Some n ->
  exists m y, s = m ++ y /\ length m = n /\ lang r m /\ (forall m' y', s = m' ++ y' -> lang r m' -> length m' <= n).
Proof.
  induction s as [|c s IH]; intros r n; cbn [longest].
  - destruct (nullable r) eqn:E; [|discriminate]. intros H. injection H as <-. exists [], []. apply nullable_ok in E. repeat split; auto.
    intros m' y' E' _. apply app_nil_inv in E'. destruct E' as [-> _]. cbn. lia.
  - destruct (longest (deriv c r) s) as [k|] eqn:E.
    + intros H. injection H as <-. destruct (IH _ _ E) as (m & y & -> & <- & L & M). exists (c :: m), y. repeat split.
      * apply deriv_ok, L.
      * intros m' y' E' L'. destruct m' as [|d m']; [cbn; lia|]. injection E' as <- E'. cbn [List.length].
        apply le_n_S. apply (M m' y' E'). apply deriv_ok, L'.
    + destruct (nullable r) eqn:N; [|discriminate]. intros H. injection H as <-. exists [], (c :: s). apply nullable_ok in N. repeat split; auto.
      intros m' y' E' L'. destruct m' as [|d m']; [cbn; lia|]. exfalso. injection E' as <- E'. apply deriv_ok in L'.
      clear - E E' L'. revert s E' E. generalize (deriv c r) as q, L'. clear r L'. induction m' as [|x m IH]; intros q L s -> E.
      * cbn [app] in E. destruct y' as [|z y']; cbn [longest] in E; apply nullable_ok in L; rewrite L in E; [discriminate|]. destruct (longest (deriv z q) y'); discriminate.
      * cbn [app longest] in E. destruct (longest (deriv x q) (m ++ y')) eqn:F; [discriminate|]. apply (IH (deriv x q)) with (s := m ++ y'); [apply deriv_ok, L|reflexivity|exact F].
Qed.
Lemma longest_none s : forall r, longest r s = None -> forall m y, s = m ++ y -> ~ lang r m.
Proof.
  induction s as [|c s IH]; intros r E m y S L.
  - apply app_nil_inv in S. destruct S as [-> _]. cbn [longest] in E. apply nullable_ok in L. rewrite L in E. discriminate.
  - cbn [longest] in E. destruct (longest (deriv c r) s) eqn:F; [discriminate|]. destruct m as [|d m].
    + apply nullable_ok in L. rewrite L in E. discriminate.
    + injection S as <- S. apply (IH _ F m y S). apply deriv_ok, L.
Qed.

(* matches at the beginning of s; the other anchor is not looked at *)
Definition at_start (p : pattern) (m y : list ascii) : Prop := lang (body p) m /\ (eol p = true -> y = []).
Lemma here_some p s n : here p s = Some n ->
  exists m y, s = m ++ y /\ length m = n /\ at_start p m y /\ (forall m' y', s = m' ++ y' -> at_start p m' y' -> length m' <= n).
Proof.
  unfold here, at_start. destruct (eol p).
  - destruct (accepts (body p) s) eqn:E; [|discriminate]. intros H. injection H as <-. apply accepts_ok in E. exists s, [].
    rewrite app_nil_r. repeat split; auto. intros m' y' -> [_ Y]. rewrite app_length. lia.
  - intros H. destruct (longest_some _ _ _ H) as (m & y & -> & <- & L & M). exists m, y. repeat split; auto; try discriminate.
    intros m' y' E [L' _]. eapply M; eauto.
Qed.
Lemma here_none p s : here p s = None -> forall m y, s = m ++ y -> ~ at_start p m y.
Proof.
  unfold here, at_start. destruct (eol p).
  - destruct (accepts (body p) s) eqn:E; [discriminate|]. intros _ m y S [L Y]. rewrite (Y eq_refl), app_nil_r in S. subst m.
    apply accepts_ok in L. congruence.
  - intros H m y S [L _]. eapply longest_none; eauto.
Qed.
Lemma search_some p : forall s pos i j, search_from p s pos = Some (i, j) ->
  exists x m y, s = x ++ m ++ y /\ i = pos + length x /\ j = i + length m /\ first_longest p x m y.
Proof.
  induction s as [|c s IH]; intros pos i j; cbn [search_from].
  - destruct (here p []) as [n|] eqn:E; [|destruct (bol p); discriminate]. intros H. injection H as <- <-.
    destruct (here_some _ _ _ E) as (m & y & S & <- & [L Y] & M). exists [], m, y. cbn [app List.length]. split; [exact S|]. split; [lia|]. split; [lia|]. split; [repeat split; auto|].
    intros x' m' y' S' (L' & _ & Y'). split; [cbn; lia|]. intros ->. apply (M m' y'); [cbn [app] in *; congruence|split; assumption].
  - destruct (here p (c :: s)) as [n|] eqn:E.
    + intros H. injection H as <- <-. destruct (here_some _ _ _ E) as (m & y & S & <- & [L Y] & M). exists [], m, y. cbn [app List.length].
      split; [exact S|]. split; [lia|]. split; [lia|]. split; [repeat split; auto|].
    intros x' m' y' S' (L' & _ & Y'). split; [cbn; lia|]. intros ->. apply (M m' y'); [cbn [app] in *; congruence|split; assumption].
    + destruct (bol p) eqn:B; [discriminate|]. intros H. destruct (IH _ _ _ H) as (x & m & y & -> & -> & -> & (L & _ & Y) & M).
      exists (c :: x), m, y. cbn [app List.length]. split; [reflexivity|]. split; [lia|]. split; [lia|]. split.
      * split; [exact L|]. split; [congruence|exact Y].
      * intros x' m' y' S O. destruct x' as [|d x'].
        { exfalso. cbn [app] in S. destruct O as (L' & _ & Y'). apply (here_none _ _ E m' y'); [symmetry; exact S|split; assumption]. }
        injection S as -> S. destruct O as (L' & B' & Y'). destruct (M x' m' y' S) as [M1 M2]; [repeat split; auto; congruence|].
        cbn [List.length]. split; [lia|]. intros X. injection X as X. auto.
Qed.
Lemma search_none p : forall s pos, search_from p s pos = None -> forall x m y, s = x ++ m ++ y -> ~ occurs p x m y.
Proof.
  induction s as [|c s IH]; intros pos; cbn [search_from].
  - destruct (here p []) eqn:E; [discriminate|]. intros _ x m y S (L & _ & Y). apply app_nil_inv in S. destruct S as [-> S].
    apply (here_none _ _ E m y (eq_sym S)). split; assumption.
  - destruct (here p (c :: s)) eqn:E; [discriminate|]. intros H x m y S (L & B & Y). destruct x as [|d x].
    + apply (here_none _ _ E m y S). split; assumption.
    + destruct (bol p) eqn:Bp; [specialize (B eq_refl); discriminate|]. injection S as <- S. apply (IH _ H x m y S). repeat split; auto. congruence.
Qed.
Lemma first_unique p x m y x' m' y' : x ++ m ++ y = x' ++ m' ++ y' -> first_longest p x m y -> first_longest p x' m' y' -> x = x' /\ m = m' /\ y = y'.
Proof.
  intros E (O & M) (O' & M'). destruct (M x' m' y' (eq_sym E) O') as [A1 A2]. destruct (M' x m y E O) as [B1 B2].
  assert (X : x = x').
  { assert (L : length x = length x') by lia. apply (f_equal (firstn (length x))) in E. rewrite firstn_app, firstn_all, Nat.sub_diag, firstn_O, app_nil_r in E.
    rewrite L, firstn_app, firstn_all, Nat.sub_diag, firstn_O, app_nil_r in E. exact E. }
  subst x'. apply app_inv_head in E. specialize (A2 eq_refl). specialize (B2 eq_refl).
  assert (Mm : m = m').
  { assert (L : length m = length m') by lia. apply (f_equal (firstn (length m))) in E. rewrite firstn_app, firstn_all, Nat.sub_diag, firstn_O, app_nil_r in E.
    rewrite L, firstn_app, firstn_all, Nat.sub_diag, firstn_O, app_nil_r in E. exact E. }
  subst m'. apply app_inv_head in E. auto.
Qed.
Lemma search_ok p s i j : search p s = Some (i, j) <-> exists x m y, s = x ++ m ++ y /\ first_longest p x m y /\ i = length x /\ j = length x + length m.
Proof.
  split.
  - intros H. destruct (search_some _ _ _ _ _ H) as (x & m & y & S & -> & -> & F). exists x, m, y. cbn [Nat.add]. auto.
  - intros (x & m & y & S & F & -> & ->). destruct (search p s) as [[i j]|] eqn:E.
    + destruct (search_some _ _ _ _ _ E) as (x' & m' & y' & S' & -> & -> & F'). cbn [Nat.add]. rewrite S in S'.
      destruct (first_unique _ _ _ _ _ _ _ S' F F') as (-> & -> & ->). reflexivity.
    + exfalso. apply (search_none _ _ _ E x m y S). apply F.
Qed.
Lemma match_ok s p : regex_match s p = true <-> exists x m y, s = x ++ m ++ y /\ occurs p x m y.
Proof.
  unfold regex_match. destruct (search p s) as [[i j]|] eqn:E.
  - split; [intros _|reflexivity]. apply search_ok in E. destruct E as (x & m & y & S & F & _). exists x, m, y. split; [exact S|apply F].
  - split; [discriminate|]. intros (x & m & y & S & O). exfalso. exact (search_none _ _ _ E x m y S O).
Qed.

(* --- the loops ------------------------------------------------------------------- *)
Lemma sub_ok ts pos n : (Z.of_nat (length ts) < two64)%Z -> pos <= length ts -> n <= length ts ->
  sub ts (Z.of_nat pos) (Z.of_nat n) = Ok (firstn n (skipn pos ts)).
Proof.
  intros B P N. unfold sub, wrap64. rewrite !Z.mod_small by (unfold two64 in *; lia).
  destruct (Z.ltb_spec (Z.of_nat (length ts)) (Z.of_nat pos)); [lia|]. rewrite !Nat2Z.id. reflexivity.
Qed.
Lemma omapl_all {A B} (f : A -> outcome B) g l : (forall x, In x l -> f x = Ok (g x)) -> omapl f l = Ok (map g l).
Proof.
  induction l as [|x l IH]; intros H; [reflexivity|]. cbn [omapl map]. rewrite (H x (or_introl eq_refl)). cbn [obind].
  rewrite IH by (intros y Y; apply H; right; exact Y). reflexivity.
Qed.
Lemma skipn_skipn_ {A} (l : list A) : forall a b, skipn a (skipn b l) = skipn (b + a) l.
Proof. induction l as [|x l IH]; intros a b; [rewrite !skipn_nil; reflexivity|]. destruct b; [reflexivity|]. cbn [skipn Nat.add]. apply IH. Qed.
Lemma skipn_app_ {A} (a b : list A) : skipn (length a) (a ++ b) = b.
Proof. rewrite skipn_app, skipn_all, Nat.sub_diag. reflexivity. Qed.
Lemma firstn_app_ {A} (a b : list A) : firstn (length a) (a ++ b) = a.
Proof. rewrite firstn_app, firstn_all, Nat.sub_diag, firstn_O, app_nil_r. reflexivity. Qed.

Section Loops.
Variable exec : list ascii -> option found.
Variable nm : nat.
Hypothesis So : sound exec.
Hypothesis Ad : forall s so eo gs, exec s = Some ((so, eo), gs) -> 0 < eo.

Lemma parts s so eo gs : exec s = Some ((so, eo), gs) -> exists x m y, s = x ++ m ++ y /\ so = length x /\ eo = length x + length m.
Proof.
  intros E. destruct (So _ _ _ _ E) as [B _]. exists (firstn so s), (firstn (eo - so) (skipn so s)), (skipn eo s).
  rewrite !firstn_length, !skipn_length. split; [|lia].
  replace (skipn eo s) with (skipn (eo - so) (skipn so s)) by (rewrite skipn_skipn_; f_equal; lia). rewrite firstn_skipn, firstn_skipn. reflexivity.
Qed.
Lemma group_inside s so eo gs i : exec s = Some ((so, eo), gs) ->
  (exists a b, nth_error gs i = Some (Some (a, b)) /\ a <= b <= length s /\ group gs i = (Z.of_nat a, Z.of_nat b) /\ group_text s gs i = firstn (b - a) (skipn a s)) \/
  (group gs i = (-1, -1)%Z /\ group_text s gs i = []).
Proof.
  intros E. destruct (So _ _ _ _ E) as [_ F]. unfold group, group_text. destruct (nth_error gs i) as [[[a b]|]|] eqn:N; auto.
  left. exists a, b. pose proof (Forall_forall (inside (length s)) gs) as [G _]. specialize (G F _ (nth_error_In _ _ N)). cbn in G. auto.
Qed.
Lemma group_sub ts off gs i a b : (Z.of_nat (length ts) < two64)%Z -> off <= length ts -> a <= b <= length (skipn off ts) ->
  group gs i = (Z.of_nat a, Z.of_nat b) -> sub ts (Z.of_nat off + Z.of_nat a) (Z.of_nat b - Z.of_nat a) = Ok (firstn (b - a) (skipn a (skipn off ts))).
Proof.
  intros B O I _. rewrite skipn_length in I. rewrite <- Nat2Z.inj_add, <- Nat2Z.inj_sub by lia. rewrite sub_ok by lia.
  rewrite skipn_skipn_. reflexivity.
Qed.

Lemma extract_run ts : (Z.of_nat (length ts) < two64)%Z -> forall fuel off ret, off <= length ts -> length ts - off < fuel ->
  exists l z, scan exec nm (skipn off ts) l z /\ extract_loop exec nm fuel ts off ret = Ok (ret ++ map snd l).
Proof.
  intros B. induction fuel as [|fuel IH]; intros off ret O L; [lia|]. cbn [extract_loop].
  destruct (exec (skipn off ts)) as [[[so eo] gs]|] eqn:E.
  - pose proof (Ad _ _ _ _ E) as Pe. destruct (parts _ _ _ _ E) as (x & m & y & S & -> & ->).
    rewrite (omapl_all _ (group_text (skipn off ts) gs)).
    2: { intros i _. destruct (group_inside _ _ _ _ i E) as [(a & b & N & I & G & T)|[G T]]; rewrite G.
         - rewrite T. destruct (Z.ltb_spec (Z.of_nat a) (Z.of_nat b)).
           + apply (group_sub ts off gs i); auto.
           + replace (b - a) with 0 by lia. reflexivity.
         - rewrite T. reflexivity. }
    cbn [obind]. destruct (Nat.eqb_spec (length x + length m) 0); [lia|].
    assert (Ls : length (skipn off ts) = length x + (length m + length y)) by (rewrite S, !app_length; reflexivity). rewrite skipn_length in Ls.
    destruct (IH (off + (length x + length m)) (ret ++ [map (group_text (skipn off ts) gs) (seq 0 nm)])) as (l & z & R & X); [lia|lia|].
    rewrite <- skipn_skipn_, S, app_assoc, <- app_length, skipn_app_ in R.
    exists ((x, texts (skipn off ts) gs nm) :: l), z. rewrite X. split.
    + rewrite S. constructor; [rewrite <- S; exact E|exact R].
    + cbn [map snd]. rewrite <- app_assoc. reflexivity.
  - exists [], (skipn off ts). split; [constructor; exact E|]. cbn [map]. rewrite app_nil_r. reflexivity.
Qed.
Variable func : list (list ascii) -> list ascii.
Hypothesis All : forall s m gs, exec s = Some (m, gs) -> forall i, i < nm -> exists a b, nth_error gs i = Some (Some (a, b)).
Lemma replace_run ts : (Z.of_nat (length ts) < two64)%Z -> forall fuel off s, off <= length ts -> length ts - off < fuel ->
  exists l z, scan exec nm (skipn off ts) l z /\ replace_loop exec nm func fuel ts off s = Ok (s ++ List.concat (map (fun p => fst p ++ func (snd p)) l) ++ z).
Proof.
  intros B. induction fuel as [|fuel IH]; intros off s O L; [lia|]. cbn [replace_loop].
  destruct (exec (skipn off ts)) as [[[so eo] gs]|] eqn:E.
  - pose proof (Ad _ _ _ _ E) as Pe. destruct (parts _ _ _ _ E) as (x & m & y & S & -> & ->).
    assert (Ls : length (skipn off ts) = length x + (length m + length y)) by (rewrite S, !app_length; reflexivity). rewrite skipn_length in Ls.
    rewrite sub_ok by lia. assert (Fx : firstn (length x) (skipn off ts) = x) by (rewrite S; apply firstn_app_). rewrite Fx. cbn [obind].
    rewrite (omapl_all _ (group_text (skipn off ts) gs)).
    2: { intros i I. apply in_seq in I. destruct (All _ _ _ E i) as (a' & b' & N'); [lia|].
         destruct (group_inside _ _ _ _ i E) as [(a & b & N & J & G & T)|[G T]].
         - rewrite G, T. apply (group_sub ts off gs i); auto.
         - exfalso. unfold group in G. rewrite N' in G. injection G. lia. }
    cbn [obind]. destruct (Nat.eqb_spec (length x + length m) 0); [lia|].
    destruct (IH (off + (length x + length m)) (s ++ x ++ func (map (group_text (skipn off ts) gs) (seq 0 nm)))) as (l & z & R & X); [lia|lia|].
    rewrite <- skipn_skipn_, S, app_assoc, <- app_length, skipn_app_ in R.
    exists ((x, texts (skipn off ts) gs nm) :: l), z. rewrite X. split.
    + rewrite S. constructor; [rewrite <- S; exact E|exact R].
    + cbn [map List.concat fst snd]. unfold texts. rewrite <- !app_assoc. reflexivity.
  - exists [], (skipn off ts). split; [constructor; exact E|]. cbn [map List.concat]. rewrite sub_ok by lia. cbn [obind].
    rewrite firstn_all2 by (rewrite skipn_length; lia). reflexivity.
Qed.
End Loops.

Lemma scan_fun exec nm s l z : scan exec nm s l z -> forall l' z', scan exec nm s l' z' -> l = l' /\ z = z'.
Proof.
  induction 1 as [s E|x m y gs l z E R IH]; intros l' z' R'.
  - inversion R'; subst; [auto|congruence].
  - inversion R' as [s0 E0|x' m' y' gs' l0 z0 E0 R0 Es]; subst; [congruence|].
    rewrite Es in E0. rewrite E in E0. injection E0 as Lx Lm <-.
    assert (X : x = x').
    { apply (f_equal (firstn (length x))) in Es. rewrite firstn_app_ in Es. rewrite Lx, firstn_app_ in Es. congruence. }
    subst x'. apply app_inv_head in Es.
    assert (Y : y = y').
    { apply (f_equal (skipn (length m))) in Es. rewrite skipn_app_ in Es. replace (length m) with (length m') in Es by lia. rewrite skipn_app_ in Es. congruence. }
    subst y'. apply app_inv_tail in Es. subst m'. destruct (IH _ _ R0) as [-> ->]. auto.
Qed.

(* patterns without groups *)
Lemma exec_of_sound p : sound (exec_of p).
Proof.
  intros s so eo gs E. unfold exec_of in E. destruct (search p s) as [[i j]|] eqn:F; [|discriminate]. cbn in E. injection E as <- <- <-.
  apply search_ok in F. destruct F as (x & m & y & -> & _ & -> & ->). rewrite !app_length. split; [lia|constructor].
Qed.

(* groups *)
Lemma group_count_flat r : ~ In "["%char r ->
  forall pre b, (forall a b, pre ++ r <> a ++ "\"%char :: "\"%char :: b) -> (b = true <-> exists u, pre = u ++ ["\"%char]) ->
  length (filter (opens (pre ++ r)) (seq (length pre) (length r))) = group_count (if b then Escaped else Outside) r.
Proof.
  induction r as [|c r IH]; intros NB pre b NE Hb; [reflexivity|]. cbn [List.length seq filter].
  assert (IH' : forall b', (b' = true <-> exists u, pre ++ [c] = u ++ ["\"%char]) ->
     length (filter (opens (pre ++ c :: r)) (seq (S (length pre)) (length r))) = group_count (if b' then Escaped else Outside) r).
  { intros b' H'. specialize (IH (fun I => NB (or_intror I)) (pre ++ [c]) b'). rewrite <- app_assoc in IH. specialize (IH NE H').
    rewrite app_length in IH. cbn [app List.length] in IH. rewrite Nat.add_1_r in IH. exact IH. }
  assert (N0 : nth_error (pre ++ c :: r) (length pre) = Some c) by (rewrite nth_error_app2, Nat.sub_diag by lia; reflexivity).
  assert (Op : opens (pre ++ c :: r) (length pre) = Ascii.eqb c "("%char && negb b).
  { unfold opens. rewrite N0. f_equal. destruct (Nat.eqb_spec (length pre) 0) as [Z|Z].
    - destruct pre; [|discriminate]. destruct b; [|reflexivity]. destruct (proj1 Hb eq_refl) as (u & E). destruct u; discriminate.
    - cbn [orb]. destruct (exists_last (l := pre)) as (u & d & ->); [intros ->; apply Z; reflexivity|].
      rewrite <- app_assoc, app_length. cbn [app List.length]. replace (length u + 1 - 1) with (length u) by lia.
      rewrite nth_error_app2, Nat.sub_diag by lia. cbn [nth_error]. f_equal. unfold backslash. destruct (Ascii.eqb_spec d "\"%char) as [->|D].
      + symmetry. apply Hb. exists u. reflexivity.
      + destruct b; [|reflexivity]. destruct (proj1 Hb eq_refl) as (v & E). apply app_inj_tail in E. destruct E as [_ E]. contradiction. }
  rewrite Op. destruct b.
  - rewrite Bool.andb_false_r. cbn [group_count]. apply (IH' false). split; [discriminate|].
    intros (u & E). apply app_inj_tail in E. destruct E as [_ ->]. exfalso.
    destruct (proj1 Hb eq_refl) as (v & ->). apply (NE v r). rewrite <- app_assoc. reflexivity.
  - rewrite Bool.andb_true_r. cbn [group_count]. destruct (Ascii.eqb_spec c "\"%char) as [->|D].
    + cbn. apply (IH' true). split; [exists pre; reflexivity|reflexivity].
    + destruct (Ascii.eqb_spec c "["%char) as [->|D2]; [exfalso; apply NB; left; reflexivity|].
      assert (H' : false = true <-> exists u, pre ++ [c] = u ++ ["\"%char]).
      { split; [discriminate|]. intros (u & E). apply app_inj_tail in E. destruct E as [_ ->]. congruence. }
      specialize (IH' false H'). destruct (Ascii.eqb_spec c "("%char); cbn [List.length]; rewrite IH'; reflexivity.
Qed.
