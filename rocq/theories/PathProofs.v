From Coq Require Import Ascii.
From Verif Require Import Base VecProofs StrModel StrSpec StrProofs StrProofs2 StrProofs3 PathModel.

Lemma find_last_hit : forall p a c b, p c = true -> (forall x, In x b -> p x = false) ->
  find_last p (a ++ c :: b) None = Some (length a).
Proof.
  intros p a c b C B. unfold find_last. replace (a ++ c :: b) with ((a ++ [c]) ++ b) by (rewrite <- app_assoc; reflexivity).
  rewrite last_at_skip by exact B. now rewrite last_at_hit.
Qed.
Lemma find_last_none : forall p s, (forall x, In x s -> p x = false) -> find_last p s None = None.
Proof. intros. unfold find_last. now apply last_at_none. Qed.
Lemma find_last_before : forall p a c b, find_last p (a ++ c :: b) (Some (length a - 1)) = find_last p a None \/ a = [].
Proof.
  intros p a c b. destruct a as [|x a]; [now right|]. left. unfold find_last. f_equal.
  replace (length (x :: a) - 1 + 1) with (length (x :: a)) by (cbn; lia). apply firstn_len_app.
Qed.
Lemma no_slash_b : forall b, ~ In slash b -> forall x, In x b -> Ascii.eqb slash x = false.
Proof. intros b N x I. apply Ascii.eqb_neq. intros <-. contradiction. Qed.
Lemma spaces_b : forall sp, (forall x, In x sp -> x = space) -> forall x, In x sp -> hasnt [space] x = false.
Proof. intros sp H x I. rewrite (H x I). reflexivity. Qed.
Lemma slash_nonspace : hasnt [space] slash = true.
Proof. reflexivity. Qed.

(* the last non-space character is not the given slash *)
Lemma last_char_other : forall a b, ~ (forall x, In x b -> x = space) ->
  match find_last (hasnt [space]) (a ++ slash :: b) None with Some l => length a =? l | None => false end = false.
Proof.
  intros a b N. assert (E : exists b1 c b2, b = b1 ++ c :: b2 /\ c <> space /\ (forall x, In x b2 -> x = space)).
  { clear a. induction b as [|c b IH] using rev_ind; [exfalso; apply N; intros ? []|].
    destruct (Ascii.ascii_dec c space) as [->|C].
    - destruct IH as (b1 & c & b2 & -> & C & A).
      + intros H. apply N. intros x I. apply in_app_iff in I. destruct I as [I|[<-|[]]]; auto.
      + exists b1, c, (b2 ++ [space]). rewrite <- app_assoc. split; auto. split; auto. intros x I. apply in_app_iff in I.
        destruct I as [I|[<-|[]]]; auto.
    - exists b, c, []. repeat split; auto. intros ? []. }
  destruct E as (b1 & c & b2 & -> & C & A).
  replace (a ++ slash :: b1 ++ c :: b2) with ((a ++ slash :: b1) ++ c :: b2) by (rewrite <- app_assoc; reflexivity).
  rewrite find_last_hit.
  - rewrite app_length. cbn. apply Nat.eqb_neq. lia.
  - unfold hasnt, has. cbn. destruct (Ascii.eqb_spec c space); [contradiction|reflexivity].
  - now apply spaces_b.
Qed.

Lemma substr_len : forall (a b : list ascii), substr (a ++ b) 0 (length a) = Ok a.
Proof. intros. unfold substr. cbn. now rewrite firstn_len_app. Qed.
Lemma substr_end_len : forall (a b : list ascii), substr_end (a ++ b) (length a) = Ok b.
Proof. intros. unfold substr_end. rewrite app_length. destruct (Nat.leb_spec (length a) (length a + length b)); [|lia]. now rewrite skipn_len_app. Qed.

Lemma plain_ok : forall d b, ~ In slash b -> ~ (forall x, In x b -> x = space) ->
  get_basename (d ++ slash :: b) = Ok b /\ get_directory (d ++ slash :: b) = Ok (d ++ [slash]).
Proof.
  intros d b N S. unfold get_basename, get_directory.
  rewrite (find_last_hit _ d slash b) by (reflexivity || now apply no_slash_b). rewrite (last_char_other d b S).
  replace (d ++ slash :: b) with ((d ++ [slash]) ++ b) by (rewrite <- app_assoc; reflexivity).
  replace (length d + 1) with (length (d ++ [slash])) by (rewrite app_length; reflexivity).
  split; [apply substr_end_len|apply substr_len].
Qed.
Lemma no_slash_ok : forall p, ~ In slash p -> get_basename p = Ok p /\ get_directory p = Ok [dot; slash].
Proof.
  intros p N. unfold get_basename, get_directory. rewrite find_last_none by now apply no_slash_b. auto.
Qed.
Lemma last_is_slash : forall a sp, (forall x, In x sp -> x = space) ->
  find_last (Ascii.eqb slash) (a ++ slash :: sp) None = Some (length a) /\
  find_last (hasnt [space]) (a ++ slash :: sp) None = Some (length a).
Proof.
  intros a sp S. split; apply find_last_hit; auto.
  - apply no_slash_b. intros I. apply S in I. discriminate.
  - now apply spaces_b.
Qed.
Lemma trailing_ok : forall d b sp, ~ In slash b -> (forall x, In x sp -> x = space) ->
  get_basename (d ++ slash :: b ++ slash :: sp) = Ok b /\ get_directory (d ++ slash :: b ++ slash :: sp) = Ok (d ++ [slash]).
Proof.
  intros d b sp N HS. set (a := d ++ slash :: b).
  replace (d ++ slash :: b ++ slash :: sp) with (a ++ slash :: sp) by (unfold a; rewrite <- app_assoc; reflexivity).
  destruct (last_is_slash a sp HS) as (E1 & E2). unfold get_basename, get_directory. rewrite E1, E2, Nat.eqb_refl.
  assert (La : length a = length d + 1 + length b) by (unfold a; rewrite app_length; cbn; lia).
  destruct (Nat.eqb_spec (length a) 0); [lia|].
  destruct (find_last_before (Ascii.eqb slash) a slash sp) as [E| ->]; [|cbn in *; lia].
  assert (F : find_last (Ascii.eqb slash) a None = Some (length d)).
  { unfold a. apply find_last_hit; [reflexivity|]. now apply no_slash_b. }
  rewrite E, F. split.
  - unfold a. rewrite app_length. cbn [length].
    replace (length d + S (length b) - length d - 1) with (length b) by lia.
    replace ((d ++ slash :: b) ++ slash :: sp) with ((d ++ [slash]) ++ b ++ slash :: sp) by (rewrite <- !app_assoc; reflexivity).
    replace (length d + 1) with (length (d ++ [slash])) by (rewrite app_length; reflexivity). apply substr_mid.
  - replace (a ++ slash :: sp) with ((d ++ [slash]) ++ b ++ slash :: sp) by (unfold a; rewrite <- !app_assoc; reflexivity).
    replace (length d + 1) with (length (d ++ [slash])) by (rewrite app_length; reflexivity). apply substr_len.
Qed.
Lemma single_ok : forall b sp, b <> [] -> ~ In slash b -> (forall x, In x sp -> x = space) ->
  get_basename (b ++ slash :: sp) = Ok (slash :: sp) /\ get_directory (b ++ slash :: sp) = Ok [dot; slash].
Proof.
  intros b sp Nb N S. destruct (last_is_slash b sp S) as (E1 & E2). unfold get_basename, get_directory. rewrite E1, E2, Nat.eqb_refl.
  destruct (Nat.eqb_spec (length b) 0) as [L|_]; [destruct b; [contradiction|cbn in L; lia]|].
  destruct (find_last_before (Ascii.eqb slash) b slash sp) as [E| ->]; [|contradiction].
  rewrite E, find_last_none by now apply no_slash_b. split; [|reflexivity]. apply substr_end_len.
Qed.
Lemma root_ok : forall sp, (forall x, In x sp -> x = space) ->
  get_basename (slash :: sp) = Ok [slash] /\ get_directory (slash :: sp) = Ok [slash].
Proof.
  intros sp S. destruct (last_is_slash [] sp S) as (E1 & E2). cbn [app] in *. unfold get_basename, get_directory. rewrite E1, E2. cbn. auto.
Qed.
Lemma last_split : forall c (p : list ascii), ~ In c p \/ exists a b, p = a ++ c :: b /\ ~ In c b.
Proof.
  intros c p. induction p as [|x p IH]; [left; intros []|]. destruct IH as [N|(a & b & -> & N)].
  - destruct (Ascii.ascii_dec x c) as [->|D]; [right; exists [], p; auto|]. left. intros [->|I]; auto.
  - right. exists (x :: a), b. auto.
Qed.
Lemma all_spaces_dec : forall b : list ascii, (forall x, In x b -> x = space) \/ ~ (forall x, In x b -> x = space).
Proof.
  induction b as [|c b IH]; [left; intros ? []|]. destruct (Ascii.ascii_dec c space) as [->|D].
  - destruct IH as [H|H]; [left|right].
    + intros x [<-|I]; auto.
    + intros G. apply H. intros x I. apply G. now right.
  - right. intros G. apply D, G. now left.
Qed.

(* --- extensions ------------------------------------------------------------------ *)
Lemma extension_none : forall s, ~ In dot s ->
  remove_extension s = Ok s /\ get_extension s = Ok [] /\ split_extension s = Ok (s, []).
Proof.
  intros s N. unfold remove_extension, get_extension, split_extension. rewrite find_last_none; auto.
  intros x I. apply Ascii.eqb_neq. intros <-. contradiction.
Qed.
Lemma extension_some : forall a b, ~ In dot b ->
  remove_extension (a ++ dot :: b) = Ok a /\ get_extension (a ++ dot :: b) = Ok (dot :: b) /\
  split_extension (a ++ dot :: b) = Ok (a, dot :: b).
Proof.
  intros a b N. unfold remove_extension, get_extension, split_extension. rewrite find_last_hit.
  - rewrite substr_len, substr_end_len. auto.
  - reflexivity.
  - intros x I. apply Ascii.eqb_neq. intros <-. contradiction.
Qed.

(* --- directorize, is_absolute_path ------------------------------------------------ *)
Lemma directorize_ok : forall p, exists m r, trim p blanks = Ok m /\ directorize p = Ok r /\
  (m = [] -> r = []) /\ (forall d, m = d ++ [slash] -> r = m) /\ (m <> [] -> (forall d, m <> d ++ [slash]) -> r = m ++ [slash]) /\
  core blanks m.
Proof.
  intros p. destruct (trim_ok p blanks) as (m & E & _ & C). exists m. unfold directorize. rewrite E. cbn [obind].
  destruct m as [|x d _] using rev_ind.
  - exists []. repeat split; auto; try congruence; intros d H; destruct d; discriminate.
  - assert (M : forall A (y : A) z, match d ++ [x] with [] => y | _ => z end = z) by (intros; now destruct d).
    rewrite M. replace (length (d ++ [x]) - 1) with (length d) by (rewrite app_length; cbn; lia).
    assert (G : oget (d ++ [x]) (length d) = Ok x).
    { unfold oget. rewrite nth_error_app2, Nat.sub_diag by lia. reflexivity. }
    rewrite G. cbn [obind].
    exists (if Ascii.eqb x slash then d ++ [x] else (d ++ [x]) ++ [slash]). split; [reflexivity|]. split; [reflexivity|].
    split; [intros H; destruct d; discriminate|].
    split; [|split; [|exact C]].
    + intros d' H. apply app_inj_tail in H. destruct H as (_ & ->). reflexivity.
    + intros _ H. destruct (Ascii.eqb_spec x slash) as [->|]; [exfalso; now apply (H d)|reflexivity].
Qed.
Lemma directorize_idem : forall p r, directorize p = Ok r -> directorize r = Ok r /\ (r = [] \/ exists d, r = d ++ [slash]).
Proof.
  intros p r E. destruct (directorize_ok p) as (m & r' & _ & E' & H1 & H2 & H3 & C). assert (r' = r) by congruence. subst r'.
  assert (R : r = [] \/ exists d, r = d ++ [slash]).
  { destruct m as [|x d _] using rev_ind; [left; auto|]. right. destruct (Ascii.ascii_dec x slash) as [->|D].
    - exists d. now apply (H2 d).
    - exists (d ++ [x]). apply H3; [destruct d; discriminate|]. intros d' X. apply app_inj_tail in X. tauto. }
  split; [|exact R]. assert (CR : core blanks r).
  { destruct m as [|x d _] using rev_ind; [rewrite H1 by auto; now left|].
    destruct C as [C|((c & t & Ec & Nc) & _)]; [destruct d; discriminate|].
    right. assert (NS : ~ In slash blanks) by (cbn; intuition discriminate).
    destruct (Ascii.ascii_dec x slash) as [->|D].
    - rewrite (H2 d eq_refl). split; [exists c, t; auto|exists d, slash; auto].
    - rewrite H3.
      + split; [exists c, (t ++ [slash]); rewrite Ec; auto|exists (d ++ [x]), slash; auto].
      + destruct d; discriminate.
      + intros d' X. apply app_inj_tail in X. tauto. }
  destruct (directorize_ok r) as (m2 & r2 & T2 & E2 & G1 & G2 & _ & _).
  rewrite (trim_core r blanks CR) in T2. injection T2 as <-. rewrite E2. f_equal.
  destruct R as [->|(d & ->)]; [auto|]. now apply (G2 d).
Qed.
Lemma absolute_ok : forall p, exists r, is_absolute_path p = Ok r /\
  (r = true <-> exists g t, p = g ++ slash :: t /\ forall c, In c g -> c = " "%char \/ c = "009"%char).
Proof.
  intros p. unfold is_absolute_path. set (bl := [" "; "009"]%char).
  assert (Hb : forall c, hasnt bl c = false <-> c = " "%char \/ c = "009"%char).
  { intros c. rewrite hasnt_false. cbn. split; intros [H|H]; auto; try (destruct H as [H|[]]); auto. }
  assert (D : (forall x, In x p -> hasnt bl x = false) \/ exists g c t, p = g ++ c :: t /\ (forall x, In x g -> hasnt bl x = false) /\ hasnt bl c = true).
  { induction p as [|x p IH]; [left; intros ? []|]. destruct (hasnt bl x) eqn:Ex.
    - right. exists [], x, p. repeat split; auto. intros ? [].
    - destruct IH as [H|(g & c & t & -> & H & C)]; [left; intros y [<-|I]; auto|].
      right. exists (x :: g), c, t. repeat split; auto. intros y [<-|I]; auto. }
  unfold find_first. cbn [skipn]. destruct D as [H|(g & c & t & -> & H & C)].
  - assert (E : first_at (hasnt bl) p 0 = None).
    { rewrite <- (app_nil_r p). rewrite first_at_skip by exact H. reflexivity. }
    rewrite E. exists false. split; auto. split; [discriminate|]. intros (g & t & -> & _).
    specialize (H slash). rewrite in_app_iff in H. cbn in H. discriminate H. auto.
  - rewrite first_at_skip by exact H. cbn [first_at]. rewrite C. cbn [Nat.add]. unfold oget.
    rewrite nth_error_app2, Nat.sub_diag by lia. cbn [nth_error obind]. exists (Ascii.eqb c slash). split; auto.
    rewrite Ascii.eqb_eq. split.
    + intros ->. exists g, t. split; auto. intros x I. now apply Hb, H.
    + intros (g' & t' & E & H'). 
      assert (L : length g = length g').
      { assert (A : first_at (hasnt bl) (g ++ c :: t) 0 = Some (length g)).
        { rewrite first_at_skip by exact H. cbn [first_at]. now rewrite C. }
        assert (B : first_at (hasnt bl) (g' ++ slash :: t') 0 = Some (length g')).
        { rewrite first_at_skip by (intros x I; apply Hb; auto). reflexivity. }
        rewrite E in A. congruence. }
      apply app_inj_length in E; auto. destruct E as (_ & E). now injection E.
Qed.

(* --- mkdir ------------------------------------------------------------------------ *)
Definition nonempty (d : list ascii) : bool := negb (length d =? 0).
(* the k-th directory created *)
Definition upto (absolute : bool) (comps : list (list ascii)) (k : nat) : list ascii :=
  (if absolute then [slash] else []) ++ joined (firstn k comps) [slash].
Lemma joined_snoc : forall w d sep, joined (w ++ [d]) sep = match w with [] => d | _ => joined w sep ++ sep ++ d end.
Proof.
  induction w as [|x w IH]; intros d sep; [reflexivity|]. cbn [app joined]. rewrite IH. destruct w; [reflexivity|].
  cbn [app joined]. now rewrite <- !app_assoc.
Qed.
Lemma joined_empty : forall w sep, (forall d, In d w -> nonempty d = true) -> joined w sep = [] -> w = [].
Proof.
  intros [|x w] sep H E; auto. exfalso. assert (N : nonempty x = true) by (apply H; now left).
  destruct x; [discriminate|]. destruct w; discriminate.
Qed.
Lemma mkdir_loop_ok : forall ok ab dirs done,
  (forall d, In d done -> nonempty d = true) ->
  let comps := done ++ filter nonempty dirs in
  let calls := map (upto ab comps) (seq 1 (length done)) in
  let tmp := match done with [] => [] | _ => upto ab comps (length done) end in
  exists n r, mkdir_loop ok ab dirs tmp calls = (map (upto ab comps) (seq 1 n), r) /\
    length done <= n <= length comps /\ (forall k, length done < k -> k < n \/ (k = n /\ r = true) -> ok (upto ab comps k) = true) /\
    (r = true -> n = length comps) /\ (r = false -> length done < n /\ ok (upto ab comps n) = false).
Proof.
  intros ok ab. induction dirs as [|d dirs IH]; intros done Hd comps calls tmp.
  - exists (length done), true. cbn [mkdir_loop]. unfold comps, calls. cbn [filter] in *. rewrite app_nil_r.
    subst comps. rewrite app_nil_r. split; [reflexivity|]. split; [lia|]. split; [intros; lia|]. split; [auto|discriminate].
  - destruct d as [|c d].
    + cbn [mkdir_loop filter nonempty length Nat.eqb negb] in *. apply IH. exact Hd.
    + cbn [filter nonempty length Nat.eqb negb] in *. cbn [mkdir_loop].
      set (cd := c :: d) in *.
      assert (EC : comps = (done ++ [cd]) ++ filter nonempty dirs) by (unfold comps; cbn; rewrite <- app_assoc; reflexivity).
      assert (T : (if negb (length tmp =? 0) || ab then tmp ++ [slash] else tmp) ++ cd = upto ab comps (length done + 1)).
      { unfold upto at 1. rewrite EC. rewrite firstn_app. rewrite firstn_all2 by (rewrite app_length; cbn; lia).
        replace (length done + 1 - length (done ++ [cd])) with 0 by (rewrite app_length; cbn; lia).
        rewrite firstn_O, app_nil_r, joined_snoc. unfold tmp. destruct done as [|x done]; [destruct ab; reflexivity|].
        assert (EU : upto ab comps (length (x :: done)) = (if ab then [slash] else []) ++ joined (x :: done) [slash]).
        { unfold upto. do 2 f_equal. unfold comps. apply firstn_len_app. }
        rewrite EU. assert (NE : joined (x :: done) [slash] <> []) by (intros E; apply joined_empty in E; auto; discriminate).
        destruct (Nat.eqb_spec (length ((if ab then [slash] else []) ++ joined (x :: done) [slash])) 0) as [E|E].
        - exfalso. rewrite app_length in E. apply NE. apply length_zero_iff_nil. lia.
        - cbn [negb orb]. rewrite <- !app_assoc. reflexivity. }
      rewrite T. destruct (ok (upto ab comps (length done + 1))) eqn:OK.
      * assert (Hd' : forall x, In x (done ++ [cd]) -> nonempty x = true).
        { intros x I. apply in_app_iff in I. destruct I as [I|[<-|[]]]; auto. }
        specialize (IH (done ++ [cd]) Hd'). cbn zeta in IH. rewrite <- EC in IH. rewrite app_length in IH. cbn [length] in IH.
        replace (match done ++ [cd] with [] => [] | _ => upto ab comps (length done + 1) end) with (upto ab comps (length done + 1)) in IH by (now destruct done).
        rewrite seq_app, map_app in IH. cbn [seq map] in IH. replace (1 + length done) with (length done + 1) in IH by lia.
        destruct IH as (n & r & E & L & K & R1 & R2). exists n, r. split; [exact E|]. split; [lia|]. split; [|split; [exact R1|]].
        -- intros k Hk Hn. destruct (Nat.eq_dec k (length done + 1)) as [->|]; [exact OK|]. apply K; auto. lia.
        -- intros Hr. destruct (R2 Hr). split; [lia|auto].
      * exists (length done + 1), false. split.
        { unfold calls. rewrite seq_app, map_app. cbn [seq map]. replace (1 + length done) with (length done + 1) by lia. reflexivity. }
        split; [rewrite EC, !app_length; cbn; lia|]. split; [|split; [discriminate|]].
        -- intros k Hk [Hn|(-> & Hn)]; [lia|discriminate].
        -- intros _. split; [lia|exact OK].
Qed.
Lemma cut_words : forall s w, cut_at [slash] s w -> words_of [slash] s (filter nonempty w).
Proof.
  assert (SL : forall a, ~ In slash a -> free_of [slash] a).
  { intros a N c I [<-|[]]. contradiction. }
  assert (OC : forall a b, occurs_at [slash] (a ++ slash :: b) (length a)) by (intros a b; exists a, b; auto).
  intros s w C. induction C as [s N|a b w L C IH].
  - assert (NS : ~ In slash s).
    { intros I. apply in_split in I. destruct I as (x & y & ->). apply N. exists (length x). apply OC. }
    destruct s as [|c s]; cbn [filter nonempty length Nat.eqb negb]; [constructor; intros ? []|].
    rewrite <- (app_nil_r (c :: s)) at 1. apply (words_one [slash] [] (c :: s) [] []); auto.
    + intros ? [].
    + discriminate.
    + constructor. intros ? [].
  - assert (NS : ~ In slash a).
    { intros I. apply in_split in I. destruct I as (x & y & ->). specialize (L (length x)).
      rewrite app_length in L. cbn [length] in L. rewrite <- app_assoc in L. specialize (L (OC _ _)). lia. }
    assert (G : words_of [slash] ([slash] ++ b) (filter nonempty w)).
    { apply words_gap; auto. intros c [<-|[]]. now left. }
    destruct a as [|c a]; cbn [filter nonempty length Nat.eqb negb]; [exact G|].
    apply (words_one [slash] [] (c :: a) ([slash] ++ b)); auto.
    + intros ? [].
    + discriminate.
    + right. exists slash, b. split; [reflexivity|now left].
Qed.
Lemma mkdir_ok : forall ok path comps, words_of [slash] path comps ->
  exists n r, mkdir ok path = Ok (map (fun k => (if match path with c :: _ => Ascii.eqb c slash | [] => false end then [slash] else [])
                                        ++ joined (firstn k comps) [slash]) (seq 1 n), r) /\
    n <= length comps /\
    let dir k := (if match path with c :: _ => Ascii.eqb c slash | [] => false end then [slash] else []) ++ joined (firstn k comps) [slash] in
    (forall k, 1 <= k < n -> ok (dir k) = true) /\ (r = true -> n = length comps /\ (1 <= n -> ok (dir n) = true)) /\
    (r = false -> 1 <= n /\ ok (dir n) = false).
Proof.
  intros ok path comps W. unfold mkdir. destruct path as [|c t].
  - assert (comps = []) as -> by (eapply words_nil; eauto). exists 0, true. cbn. repeat split; auto; try lia; discriminate.
  - destruct (split_ok (c :: t) [slash] ltac:(discriminate)) as (w & E & C). rewrite E. cbn [obind].
    destruct (begins_with_ok (c :: t) [slash]) as (ab & E2 & B). rewrite E2. cbn [obind].
    assert (comps = filter nonempty w) as -> by (eapply words_fun; [exact W|now apply cut_words]).
    assert (ab = Ascii.eqb c slash) as ->.
    { destruct (Ascii.eqb_spec c slash) as [->|N].
      - apply B. exists t. reflexivity.
      - destruct ab; auto. destruct B as (B & _). destruct (B eq_refl) as (b & X). injection X as -> _. contradiction. }
    pose proof (mkdir_loop_ok ok (Ascii.eqb c slash) w [] ltac:(intros ? [])) as M. cbn [app length seq map] in M.
    destruct M as (n & r & M & L & K & R1 & R2). rewrite M. exists n, r. split; [reflexivity|]. split; [lia|].
    cbn zeta. split; [intros k Hk; apply K; lia|]. split.
    + intros Hr. split; [auto|]. intros Hn. apply K; [lia|auto].
    + intros Hr. destruct (R2 Hr). split; [lia|auto].
Qed.
