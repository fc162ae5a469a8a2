From Coq Require Import Ascii.
From Verif Require Import Base StrModel StrSpec StrProofs StrProofs2 StrProofs3 DirModel DirSpec.
Local Open Scope nat_scope.
Local Notation sl := "/"%char.

(* --- the parts of a path ---------------------------------------------------------- *)
Lemma parts_cut : forall s, cut_at [sl] s (parts s).
Proof.
  induction s as [|c s IH].
  - cbn. constructor. intros (i & a & b & E & _). destruct a; discriminate.
  - cbn [parts]. destruct (Ascii.eqb_spec c sl) as [->|N].
    + change (sl :: s) with ([] ++ [sl] ++ s). constructor; auto. intros; cbn; lia.
    + revert IH. generalize (parts s). intros w0 IH. destruct IH as [s No|a b w Le C].
      * constructor. intros (i & Oi). apply occurs_cons_inv in Oi. destruct Oi as [(_ & b & Eb)|(j & -> & Oj)].
        -- injection Eb as E _. now apply N.
        -- apply No. exists j. auto.
      * change (c :: a ++ [sl] ++ b) with ((c :: a) ++ [sl] ++ b). constructor; auto.
        intros i Oi. cbn. cbn [app] in Oi. apply occurs_cons_inv in Oi. destruct Oi as [(_ & b' & Eb)|(j & -> & Oj)].
        -- injection Eb as E _. now destruct N.
        -- specialize (Le j Oj). lia.
Qed.
Lemma split_parts : forall s, split s [sl] = Ok (parts s).
Proof.
  intros s. destruct (split_ok s [sl]) as (w & E & C); [discriminate|]. rewrite E. f_equal. eapply cut_fun; eauto. apply parts_cut.
Qed.
Lemma parts_free : forall s p, In p (parts s) -> ~ In sl p.
Proof.
  induction s as [|c s IH]; intros p.
  - intros [<-|[]] [].
  - cbn [parts]. destruct (Ascii.eqb_spec c sl) as [->|N].
    + intros [<-|I]; [intros []|auto].
    + destruct (parts s) as [|x w] eqn:E.
      * intros [<-|[]]. intros [H|[]]; auto.
      * intros [<-|I]; [|apply IH; now right]. intros [H|H]; [auto|]. apply (IH x); [now left|auto].
Qed.
Lemma parts_nonempty : forall s, parts s <> [].
Proof. intros [|c s]; cbn; [discriminate|]. destruct (Ascii.eqb c sl); [discriminate|]. destruct (parts s); discriminate. Qed.
Lemma parts_app : forall a d, parts (a ++ sl :: d) = parts a ++ parts d.
Proof.
  induction a as [|c a IH]; intros d; cbn [app parts]; auto.
  rewrite IH. destruct (Ascii.eqb c sl); auto. pose proof (parts_nonempty a). destruct (parts a); [tauto|reflexivity].
Qed.
Lemma parts_one : forall d, ~ In sl d -> parts d = [d].
Proof.
  induction d as [|c d IH]; intros N; auto. cbn [parts]. destruct (Ascii.eqb_spec c sl) as [->|]; [exfalso; apply N; now left|].
  rewrite IH; auto. intros I. apply N. now right.
Qed.
Lemma names_app : forall a d, names (a ++ sl :: d) = names a ++ names d.
Proof. intros. unfold names. now rewrite parts_app, filter_app. Qed.
Lemma names_one : forall d, ~ In sl d -> d <> [] -> names d = [d].
Proof. intros d N E. unfold names. rewrite parts_one by auto. destruct d; [tauto|reflexivity]. Qed.
Lemma names_words : forall s, words_of [sl] s (names s).
Proof.
  induction s as [|c s IH].
  - apply (words_none [sl] []). intros ? [].
  - unfold names in *. cbn [parts]. destruct (Ascii.eqb_spec c sl) as [->|N].
    + cbn [filter]. apply (words_gap [sl] [sl]); auto. intros x [<-|[]]. now left.
    + destruct (parts s) as [|x w] eqn:E; [now apply parts_nonempty in E|]. cbn [filter] in *.
      assert (Nc : ~ In c [sl]) by (intros [H|[]]; auto).
      destruct x as [|a x].
      * (* s is empty or starts with a slash *)
        change (c :: s) with ([] ++ [c] ++ s). constructor; auto; try discriminate.
        -- intros y [].
        -- intros y [<-|[]]. exact Nc.
        -- destruct s as [|b s]; auto. right. exists b, s. split; auto. left. cbn [parts] in E.
           destruct (Ascii.eqb_spec b sl); auto. destruct (parts s); discriminate.
      * inversion IH as [|g w' r ws G Wn F R W Eq]; subst.
        assert (g = []).
        { destruct g as [|b g]; auto. exfalso. cbn [app parts] in E. assert (b = sl) by (destruct (G b) as [<-|[]]; auto; now left).
          subst b. rewrite Ascii.eqb_refl in E. discriminate. }
        subst g. cbn [app]. change (c :: a :: x ++ r) with ([] ++ (c :: a :: x) ++ r). constructor; auto; try discriminate.
        intros y [<-|I]; auto.
Qed.
Lemma words_names : forall s ws, words_of [sl] s ws -> ws = names s.
Proof. intros s ws W. eapply words_fun; eauto. apply names_words. Qed.

(* --- walking ------------------------------------------------------------------------ *)
Local Notation path := (list (list ascii)).
Definition chain (t : tree) (base : path) (ps : path) : Prop := forall k, 1 <= k <= length ps -> t (base ++ firstn k ps) = Some true.
Lemma effective_app : forall a b, effective (a ++ b) = effective a ++ effective b.
Proof. intros. apply filter_app. Qed.
Definition dotdot : list ascii := ["."; "."]%char.
Lemma text_eqb_spec : forall a b, if text_eqb a b then a = b else a <> b.
Proof. intros. unfold text_eqb. now destruct (list_eq_dec ascii_dec a b). Qed.

Lemma walk_chain : forall t ps base, ~ In dotdot ps ->
  (chain t base (effective ps) -> walk t base ps = Some (base ++ effective ps)) /\
  (~ chain t base (effective ps) -> walk t base ps = None).
Proof.
  intros t. induction ps as [|c ps IH]; intros base D.
  - cbn. split; [now rewrite app_nil_r|]. intros H. exfalso. apply H. intros k Hk. cbn in Hk. lia.
  - cbn [walk]. unfold effective. cbn [filter]. fold (effective ps).
    assert (D' : ~ In dotdot ps) by (intros I; apply D; now right).
    unfold text_eqb at 1 2 3 4. destruct (list_eq_dec ascii_dec c ["."%char]) as [->|Nd]; [now apply IH|].
    destruct (list_eq_dec ascii_dec c ["."; "."]%char) as [->|Ndd]; [exfalso; apply D; now left|].
    assert (Sh : chain t base (c :: effective ps) <-> t (base ++ [c]) = Some true /\ chain t (base ++ [c]) (effective ps)).
    { split.
      - intros H. split; [apply (H 1); cbn; lia|]. intros k Hk. rewrite <- app_assoc. apply (H (S k)). cbn. lia.
      - intros [H1 H2] [|[|k]] Hk; [lia|exact H1|]. cbn in Hk. specialize (H2 (S k) ltac:(lia)). rewrite <- app_assoc in H2. exact H2. }
    destruct (IH (base ++ [c]) D') as [I1 I2]. rewrite Sh.
    destruct (t (base ++ [c])) as [[|]|]; split; intros H.
    + rewrite I1 by tauto. now rewrite <- app_assoc.
    + apply I2. tauto.
    + destruct H; discriminate.
    + reflexivity.
    + destruct H; discriminate.
    + reflexivity.
Qed.

(* --- one call of ::mkdir ----------------------------------------------------------------- *)
Section Mkdir.
Variable allowed : path -> bool.
Variable cwd : path.

Definition add_part (b : bool) (tmp d : list ascii) : list ascii := (if negb (length tmp =? 0) || b then tmp ++ [sl] else tmp) ++ d.
(* tmp is the path of the names done so far *)
Definition made (b : bool) (ps : path) (tmp : list ascii) : Prop :=
  names tmp = ps /\ (tmp = [] <-> ps = []) /\ (tmp <> [] -> from_root tmp = b).
Lemma made_add : forall b ps tmp d, made b ps tmp -> d <> [] -> ~ In sl d -> made b (ps ++ [d]) (add_part b tmp d) /\ add_part b tmp d <> [].
Proof.
  intros b ps tmp d (N & Z & R) Dn Df. unfold add_part.
  assert (X : (if negb (length tmp =? 0) || b then tmp ++ [sl] else tmp) ++ d <> []).
  { intros E. apply app_eq_nil in E. tauto. }
  split; [|exact X]. split; [|split].
  - destruct tmp as [|c tmp].
    + cbn [length Nat.eqb negb orb]. assert (ps = []) by (rewrite <- N; reflexivity). subst ps. cbn [app].
      destruct b; cbn [app]; [|now apply names_one]. change (sl :: d) with ([] ++ sl :: d). rewrite names_app, (names_one d) by auto. reflexivity.
    + cbn [length Nat.eqb negb orb]. rewrite <- app_assoc. cbn [app]. change (c :: tmp ++ sl :: d) with ((c :: tmp) ++ sl :: d).
      rewrite names_app, (names_one d), N by auto. reflexivity.
  - split; [tauto|]. intros E. destruct ps; discriminate.
  - intros _. destruct tmp as [|c tmp].
    + cbn [length Nat.eqb negb orb app]. destruct b; [reflexivity|]. cbn [app]. destruct d as [|x d]; [tauto|]. cbn. apply Ascii.eqb_neq.
      intros ->. apply Df. now left.
    + cbn [length Nat.eqb negb orb app]. cbn. rewrite <- (R ltac:(discriminate)). reflexivity.
Qed.
Lemma sys_ok : forall b t ps d tmp, made b (ps ++ [d]) tmp -> ~ In dotdot (ps ++ [d]) -> let base := if b then [] else cwd in
  (chain t base (effective ps) ->
    sys_mkdir allowed cwd t tmp =
      if list_eq_dec ascii_dec d ["."%char] then Exists
      else match t (base ++ effective ps ++ [d]) with
           | Some _ => Exists
           | None => if allowed (base ++ effective ps ++ [d]) then Created (add_dir t (base ++ effective ps ++ [d])) else Failed
           end) /\
  (~ chain t base (effective ps) -> sys_mkdir allowed cwd t tmp = Failed).
Proof.
  intros b t ps d tmp (N & Z & R) D base.
  assert (Nt : tmp <> []) by (rewrite Z; destruct ps; discriminate).
  unfold sys_mkdir. rewrite N, rev_app_distr. cbn [rev app]. rewrite rev_involutive, (R Nt). fold base.
  assert (D' : ~ In dotdot ps) by (intros I; apply D, in_or_app; now left).
  assert (Dd : d <> ["."; "."]%char) by (intros ->; apply D, in_or_app; right; now left).
  destruct (walk_chain t ps base D') as [W1 W2]. split; intros C.
  - rewrite W1 by auto. unfold text_eqb. destruct (list_eq_dec ascii_dec d ["."%char]); [reflexivity|].
    destruct (list_eq_dec ascii_dec d ["."; "."]%char); [contradiction|]. cbn [orb]. now rewrite <- app_assoc.
  - now rewrite W2.
Qed.

Local Notation path_text := (list ascii).
Lemma loop_skip : forall pth ds tmp t, mkdir_loop allowed cwd pth ([] :: ds) tmp t = mkdir_loop allowed cwd pth ds tmp t.
Proof. reflexivity. Qed.
Lemma begins_slash : forall pth : path_text, begins_with pth [sl] = Ok (from_root pth).
Proof.
  intros pth. destruct (begins_with_ok pth [sl]) as (r & E & R). rewrite E. f_equal. destruct pth as [|c pth]; cbn.
  - destruct r; auto. destruct (proj1 R eq_refl) as (b & H). discriminate.
  - destruct (Ascii.eqb_spec c sl) as [->|N].
    + apply R. now exists pth.
    + destruct r; auto. destruct (proj1 R eq_refl) as (b & H). injection H as H _. contradiction.
Qed.
Lemma loop_cons : forall pth d ds tmp t, d <> [] -> mkdir_loop allowed cwd pth (d :: ds) tmp t =
  let tmp := add_part (from_root pth) tmp d in
  match sys_mkdir allowed cwd t tmp with
  | Created t => mkdir_loop allowed cwd pth ds tmp t
  | Exists => mkdir_loop allowed cwd pth ds tmp t
  | Failed => Ok (false, t)
  end.
Proof. intros pth d ds tmp t N. destruct d as [|c d]; [tauto|]. cbn [mkdir_loop]. now rewrite begins_slash. Qed.

Definition nonempty (ds : path) : path := filter (fun p => match p with [] => false | _ => true end) ds.
Lemma chain_snoc : forall t base ps d, chain t base ps -> t (base ++ ps ++ [d]) = Some true -> chain t base (ps ++ [d]).
Proof.
  intros t base ps d C H k Hk. rewrite app_length in Hk. cbn in Hk. destruct (Nat.eq_dec k (length ps + 1)) as [->|].
  - rewrite firstn_all2 by (rewrite app_length; cbn; lia). exact H.
  - rewrite firstn_app. replace (k - length ps) with 0 by lia. cbn [firstn]. rewrite app_nil_r. apply C. lia.
Qed.
Lemma add_dir_same : forall t q, add_dir t q q = Some true.
Proof. intros. unfold add_dir. now destruct (list_eq_dec (list_eq_dec ascii_dec) q q). Qed.
Lemma add_dir_other : forall t p q, q <> p -> add_dir t p q = t q.
Proof. intros. unfold add_dir. now destruct (list_eq_dec (list_eq_dec ascii_dec) q p). Qed.
Lemma firstn_snoc_len : forall (base ps : path) d k, k <= length ps -> base ++ firstn k ps <> base ++ ps ++ [d].
Proof.
  intros base ps d k Hk E. apply app_inv_head in E. apply (f_equal (@length _)) in E. rewrite firstn_length, app_length in E. cbn in E. lia.
Qed.
Lemma chain_add : forall t base ps d, chain t base ps -> chain (add_dir t (base ++ ps ++ [d])) base ps.
Proof. intros t base ps d C k Hk. rewrite add_dir_other by (apply firstn_snoc_len; lia). now apply C. Qed.
Lemma prefix_of : forall (ps qs : path) k, k <= length ps -> firstn k (ps ++ qs) = firstn k ps.
Proof. intros. rewrite firstn_app. replace (k - length ps) with 0 by lia. cbn. now rewrite app_nil_r. Qed.

Lemma loop_ok : forall pth ds ps tmp t, let base := if from_root pth then [] else cwd in
  made (from_root pth) ps tmp -> (forall d, In d ds -> ~ In sl d) -> ~ In dotdot (ps ++ nonempty ds) -> chain t base (effective ps) ->
  let full := effective (ps ++ nonempty ds) in
  (forall k, length (effective ps) < k <= length full -> t (base ++ firstn k full) <> Some false /\
     (t (base ++ firstn k full) = None -> allowed (base ++ firstn k full) = true)) ->
  exists t', mkdir_loop allowed cwd pth ds tmp t = Ok (true, t') /\ chain t' base full /\
    (forall q, (forall k, 1 <= k <= length full -> q <> base ++ firstn k full) -> t' q = t q).
Proof.
  intros pth ds. induction ds as [|d ds IH]; intros ps tmp t base M Fr D C full H.
  - exists t. split; [reflexivity|]. split; [|auto]. unfold full. cbn [nonempty filter]. now rewrite app_nil_r.
  - destruct d as [|c d].
    { rewrite loop_skip. apply IH; auto. intros; apply Fr; now right. }
    set (dd := c :: d) in *. assert (Dn : dd <> []) by discriminate. rewrite loop_cons by auto.
    assert (Df : ~ In sl dd) by (apply Fr; now left).
    destruct (made_add _ _ _ _ M Dn Df) as [M' _].
    assert (En : nonempty (dd :: ds) = dd :: nonempty ds) by reflexivity.
    assert (Ea : ps ++ nonempty (dd :: ds) = (ps ++ [dd]) ++ nonempty ds) by (rewrite En, <- app_assoc; reflexivity).
    unfold full in *. rewrite Ea in *. clear En. cbv zeta.
    assert (D1 : ~ In dotdot (ps ++ [dd])) by (intros I; apply D, in_or_app; now left).
    destruct (sys_ok (from_root pth) t ps dd _ M' D1) as [S1 _]. fold base in S1. rewrite S1 by auto. clear S1.
    assert (Fr' : forall d0, In d0 ds -> ~ In sl d0) by (intros; apply Fr; now right).
    destruct (list_eq_dec ascii_dec dd ["."%char]) as [E|E].
    + apply IH; auto.
      * rewrite effective_app. unfold effective at 2. cbn [filter]. destruct (list_eq_dec ascii_dec dd ["."%char]); [|tauto]. now rewrite app_nil_r.
      * intros k Hk. apply H. rewrite effective_app in Hk. rewrite app_length in Hk. lia.
    + assert (Ee : effective (ps ++ [dd]) = effective ps ++ [dd]).
      { rewrite effective_app. f_equal. unfold effective. cbn [filter]. now destruct (list_eq_dec ascii_dec dd ["."%char]). }
      set (q := base ++ effective ps ++ [dd]).
      assert (Eq : q = base ++ firstn (length (effective ps) + 1) (effective ((ps ++ [dd]) ++ nonempty ds))).
      { rewrite effective_app, Ee, prefix_of by (rewrite app_length; cbn; lia). rewrite firstn_all2 by (rewrite app_length; cbn; lia). reflexivity. }
      assert (Lf : length (effective ps) + 1 <= length (effective ((ps ++ [dd]) ++ nonempty ds))).
      { rewrite effective_app, Ee, !app_length. cbn. lia. }
      destruct (H (length (effective ps) + 1) ltac:(lia)) as [Hf Ha]. rewrite <- Eq in Hf, Ha.
      destruct (t q) as [[|]|] eqn:Tq; [|congruence|].
      * apply IH; auto.
        -- rewrite Ee. apply chain_snoc; auto.
        -- intros k Hk. rewrite Ee, app_length in Hk. cbn in Hk. apply H. lia.
      * rewrite Ha by reflexivity.
        destruct (IH (ps ++ [dd]) (add_part (from_root pth) tmp dd) (add_dir t q)) as (t' & R & Ch & Ot); auto.
        -- fold base. rewrite Ee. apply chain_snoc; [now apply chain_add|]. apply add_dir_same.
        -- fold base. intros k Hk. rewrite Ee, app_length in Hk. cbn in Hk.
           assert (Nq : base ++ firstn k (effective ((ps ++ [dd]) ++ nonempty ds)) <> q).
           { unfold q. intros X. apply app_inv_head in X. apply (f_equal (@length _)) in X. rewrite firstn_length, app_length in X. cbn in X. lia. }
           rewrite add_dir_other by auto. apply H. lia.
        -- exists t'. split; [exact R|]. split; [exact Ch|]. intros q' Hq'. fold base in Ot. rewrite Ot by auto. apply add_dir_other.
           rewrite Eq. apply Hq'. lia.
Qed.

(* a file, or a directory that cannot be created, on the way *)
Lemma loop_blocked : forall pth ds ps tmp t, let base := if from_root pth then [] else cwd in
  made (from_root pth) ps tmp -> (forall d, In d ds -> ~ In sl d) -> ~ In dotdot (ps ++ nonempty ds) ->
  ~ chain t base (effective ps) -> nonempty ds <> [] -> mkdir_loop allowed cwd pth ds tmp t = Ok (false, t).
Proof.
  intros pth ds. induction ds as [|d ds IH]; intros ps tmp t base M Fr D C Ne; [now cbn in Ne|].
  destruct d as [|c d]; [rewrite loop_skip; apply (IH ps); auto; intros; apply Fr; now right|].
  set (dd := c :: d) in *. assert (Dn : dd <> []) by discriminate. rewrite loop_cons by auto.
  destruct (made_add _ _ _ _ M Dn (Fr dd ltac:(now left))) as [M' _]. cbv zeta.
  assert (D1 : ~ In dotdot (ps ++ [dd])).
  { intros I. apply D. apply in_app_or in I. apply in_or_app. destruct I as [I|[I|[]]]; auto. right. cbn [nonempty filter]. now left. }
  destruct (sys_ok (from_root pth) t ps dd _ M' D1) as [_ S2]. fold base in S2. now rewrite S2.
Qed.
Lemma loop_fails : forall pth ds ps tmp t, let base := if from_root pth then [] else cwd in
  made (from_root pth) ps tmp -> (forall d, In d ds -> ~ In sl d) -> ~ In dotdot (ps ++ nonempty ds) -> chain t base (effective ps) ->
  let full := effective (ps ++ nonempty ds) in
  (exists k, length (effective ps) < k <= length full /\
     (t (base ++ firstn k full) = Some false /\ k < length full \/ t (base ++ firstn k full) = None /\ allowed (base ++ firstn k full) = false)) ->
  exists t', mkdir_loop allowed cwd pth ds tmp t = Ok (false, t').
Proof.
  intros pth ds. induction ds as [|d ds IH]; intros ps tmp t base M Fr D C full (k & Hk & H).
  - unfold full in Hk. cbn [nonempty filter] in Hk. rewrite app_nil_r in Hk. lia.
  - destruct d as [|c d].
    { rewrite loop_skip. apply (IH ps); auto; [intros; apply Fr; now right|]. exists k. auto. }
    set (dd := c :: d) in *. assert (Dn : dd <> []) by discriminate. rewrite loop_cons by auto.
    assert (Df : ~ In sl dd) by (apply Fr; now left).
    destruct (made_add _ _ _ _ M Dn Df) as [M' _].
    assert (En : nonempty (dd :: ds) = dd :: nonempty ds) by reflexivity.
    assert (Ea : ps ++ nonempty (dd :: ds) = (ps ++ [dd]) ++ nonempty ds) by (rewrite En, <- app_assoc; reflexivity).
    unfold full in *. clear full. rewrite Ea in *. clear En. cbv zeta.
    assert (D1 : ~ In dotdot (ps ++ [dd])) by (intros I; apply D, in_or_app; now left).
    destruct (sys_ok (from_root pth) t ps dd _ M' D1) as [S1 _]. fold base in S1. rewrite S1 by auto. clear S1.
    assert (Fr' : forall d0, In d0 ds -> ~ In sl d0) by (intros; apply Fr; now right).
    destruct (list_eq_dec ascii_dec dd ["."%char]) as [E|E].
    + assert (Ee : effective (ps ++ [dd]) = effective ps).
      { rewrite effective_app. unfold effective at 2. cbn [filter]. destruct (list_eq_dec ascii_dec dd ["."%char]); [|tauto]. now rewrite app_nil_r. }
      apply (IH (ps ++ [dd])); auto; [now rewrite Ee|]. exists k. rewrite Ee. auto.
    + assert (Ee : effective (ps ++ [dd]) = effective ps ++ [dd]).
      { rewrite effective_app. f_equal. unfold effective. cbn [filter]. now destruct (list_eq_dec ascii_dec dd ["."%char]). }
      set (q := base ++ effective ps ++ [dd]) in *.
      assert (Eq : q = base ++ firstn (length (effective ps) + 1) (effective ((ps ++ [dd]) ++ nonempty ds))).
      { rewrite effective_app, Ee, prefix_of by (rewrite app_length; cbn; lia). rewrite firstn_all2 by (rewrite app_length; cbn; lia). reflexivity. }
      destruct (t q) as [[|]|] eqn:Tq.
      * apply (IH (ps ++ [dd])); auto; [rewrite Ee; apply chain_snoc; auto|].
        exists k. split; auto. rewrite Ee, app_length. cbn. destruct (Nat.eq_dec k (length (effective ps) + 1)) as [->|]; [|lia].
        rewrite <- Eq, Tq in H. destruct H as [[H _]|[H _]]; discriminate.
      * exists t. apply (loop_blocked pth ds (ps ++ [dd])); auto.
        -- fold base. rewrite Ee. intros X. specialize (X (length (effective ps ++ [dd]))). rewrite firstn_all in X. fold q in X. rewrite Tq in X.
           rewrite app_length in X. cbn in X. discriminate X. lia.
        -- intros Z. rewrite Z, app_nil_r, Ee in H, Hk, Eq. rewrite app_length in Hk, H. cbn in Hk, H. destruct H as [[_ H]|[H _]]; [lia|].
           replace k with (length (effective ps) + 1) in H by lia. rewrite <- Eq, Tq in H. discriminate.
      * destruct (allowed q) eqn:Al; [|eauto].
        apply (IH (ps ++ [dd])); auto; [fold base; rewrite Ee; apply chain_snoc; [now apply chain_add|apply add_dir_same]|]. fold base.
        exists k. assert (Nk : k <> length (effective ps) + 1).
        { intros ->. rewrite <- Eq, Tq, Al in H. destruct H as [[H _]|[_ H]]; discriminate. }
        split; [rewrite Ee, app_length; cbn; lia|].
        assert (Nq : base ++ firstn k (effective ((ps ++ [dd]) ++ nonempty ds)) <> q).
        { unfold q. intros X. apply app_inv_head in X. apply (f_equal (@length _)) in X. rewrite firstn_length, app_length in X. cbn in X. lia. }
        rewrite add_dir_other by auto. exact H.
Qed.
End Mkdir.
