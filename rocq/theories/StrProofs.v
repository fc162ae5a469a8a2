(* Proofs for strings: search, split, replace, trim. *)
From Coq Require Import Ascii.
From Verif Require Import Base StrModel StrSpec IndexProofs VecProofs ReduceProofs.

Lemma prefixb_iff : forall p s, prefixb p s = true <-> exists b, s = p ++ b.
Proof.
  induction p; intros s; cbn.
  - split; eauto.
  - destruct s as [|c s].
    + split; [discriminate|intros (b & E); discriminate].
    + rewrite Bool.andb_true_iff, Ascii.eqb_eq, IHp. split.
      * intros (-> & b & ->). eauto.
      * intros (b & E). injection E as -> ->. eauto.
Qed.

Lemma occurs_cons : forall p c s i, occurs_at p s i -> occurs_at p (c :: s) (S i).
Proof. intros p c s i (a & b & -> & L). exists (c :: a), b. split; auto. cbn. auto. Qed.

Lemma occurs_cons_inv : forall p c s i, occurs_at p (c :: s) i ->
  (i = 0 /\ exists b, c :: s = p ++ b) \/ exists j, i = S j /\ occurs_at p s j.
Proof.
  intros p c s i (a & b & E & L). destruct a as [|d a].
  - left. split; auto. exists b. exact E.
  - right. injection E as -> E. exists (length a). split; auto. exists a, b. auto.
Qed.

Lemma find_at_spec : forall p s i,
  match find_at p s i with
  | Some k => exists a b, s = a ++ p ++ b /\ k = i + length a /\ forall j, occurs_at p s j -> length a <= j
  | None => ~ occurs p s
  end.
Proof.
  induction s as [|c s IH]; intros i.
  - cbn. destruct (prefixb p []) eqn:E.
    + apply prefixb_iff in E. destruct E as (b & E). exists [], b. split; auto. split; [cbn; lia|intros; cbn; lia].
    + intros (j & a & b & Eq & _). destruct a; [|discriminate]. assert (prefixb p [] = true); [|congruence].
      apply prefixb_iff. eauto.
  - cbn [find_at]. destruct (prefixb p (c :: s)) eqn:E.
    + apply prefixb_iff in E. destruct E as (b & E). exists [], b. split; auto. split; [cbn; lia|intros; cbn; lia].
    + specialize (IH (S i)). destruct (find_at p s (S i)) as [k|].
      * destruct IH as (a & b & -> & -> & H). exists (c :: a), b. split; auto. split; [cbn; lia|].
        intros j Oj. apply occurs_cons_inv in Oj. destruct Oj as [(_ & b' & Eb)|(j' & -> & Oj)].
        -- assert (prefixb p (c :: a ++ p ++ b) = true) by (apply prefixb_iff; eauto). congruence.
        -- cbn. specialize (H j' Oj). lia.
      * intros (j & Oj). apply occurs_cons_inv in Oj. destruct Oj as [(_ & b' & Eb)|(j' & -> & Oj)].
        -- assert (prefixb p (c :: s) = true) by (apply prefixb_iff; eauto). congruence.
        -- apply IH. exists j'. auto.
Qed.

Lemma skipn_len_app : forall A (a b : list A), skipn (length a) (a ++ b) = b.
Proof. intros. rewrite skipn_app, skipn_all, Nat.sub_diag. reflexivity. Qed.
Lemma firstn_len_app : forall A (a b : list A), firstn (length a) (a ++ b) = a.
Proof. intros. rewrite firstn_app, firstn_all, Nat.sub_diag. cbn. apply app_nil_r. Qed.

Lemma sfind_spec : forall p u s,
  match sfind p (u ++ s) (length u) with
  | Some k => exists a b, s = a ++ p ++ b /\ k = length u + length a /\ forall j, occurs_at p s j -> length a <= j
  | None => ~ occurs p s
  end.
Proof.
  intros. unfold sfind. rewrite app_length. destruct (Nat.leb_spec (length u) (length u + length s)); [|lia].
  rewrite skipn_len_app. apply find_at_spec.
Qed.

Lemma substr_mid : forall u a b, substr (u ++ a ++ b) (length u) (length a) = Ok a.
Proof.
  intros. unfold substr. rewrite app_length. destruct (Nat.leb_spec (length u) (length u + length (a ++ b))); [|lia].
  now rewrite skipn_len_app, firstn_len_app.
Qed.
Lemma substr_tail : forall u a, substr_end (u ++ a) (length u) = Ok a.
Proof.
  intros. unfold substr_end. rewrite app_length. destruct (Nat.leb_spec (length u) (length u + length a)); [|lia].
  now rewrite skipn_len_app.
Qed.

Lemma split_loop_ok : forall p, p <> [] -> forall fuel u s ret, length s <= fuel ->
  exists w, split_loop fuel (u ++ s) p ret (length u) = Ok (ret ++ w) /\ cut_at p s w.
Proof.
  intros p Np. assert (Lp : 1 <= length p) by (destruct p; [congruence|cbn; lia]).
  induction fuel; intros u s ret L.
  - destruct s; [|cbn in L; lia]. cbn [split_loop]. pose proof (sfind_spec p u []) as H.
    destruct (sfind p (u ++ []) (length u)) as [k|].
    + destruct H as (a & b & E & _). assert (length (@nil ascii) = length (a ++ p ++ b)) by now rewrite <- E.
      rewrite !app_length in H. cbn in H. lia.
    + rewrite substr_tail. cbn. exists [[]]. split; auto. constructor. auto.
  - cbn [split_loop]. pose proof (sfind_spec p u s) as H. destruct (sfind p (u ++ s) (length u)) as [k|].
    + destruct H as (a & b & -> & -> & H).
      replace (length u + length a - length u) with (length a) by lia. rewrite substr_mid. cbn [obind].
      replace (length u + length a + length p) with (length (u ++ a ++ p)) by (rewrite !app_length; lia).
      replace (u ++ a ++ p ++ b) with ((u ++ a ++ p) ++ b) by now rewrite <- !app_assoc.
      destruct (IHfuel (u ++ a ++ p) b (ret ++ [a])) as (w & E & C); [rewrite !app_length in L; lia|].
      exists (a :: w). rewrite E, <- app_assoc. split; auto. constructor; auto.
    + rewrite substr_tail. cbn. exists [s]. split; auto. constructor. auto.
Qed.

Lemma split_ok : forall s p, p <> [] -> exists w, split s p = Ok w /\ cut_at p s w.
Proof. intros. destruct (split_loop_ok p H (length s) [] s []) as (w & E & C); auto. exists w. auto. Qed.

Lemma sfind_empty : forall s pos, pos <= length s -> sfind [] s pos = Some pos.
Proof.
  intros. unfold sfind. destruct (Nat.leb_spec pos (length s)); [|lia]. destruct (skipn pos s); reflexivity.
Qed.

Lemma split_empty : forall fuel s ret, split_loop fuel s [] ret 0 = Diverge.
Proof.
  induction fuel; intros; cbn [split_loop]; rewrite sfind_empty by lia; auto.
  unfold substr. cbn [Nat.leb obind Nat.add length Nat.sub firstn]. apply IHfuel.
Qed.

(* cut_at *)
Lemma cut_nonempty : forall p s w, cut_at p s w -> w <> [].
Proof. intros p s w C. destruct C; discriminate. Qed.
Lemma cut_joined : forall p s w, cut_at p s w -> joined w p = s.
Proof.
  intros p s w C. induction C; auto. cbn. pose proof (cut_nonempty _ _ _ C). destruct w; [congruence|].
  now rewrite IHC.
Qed.
Lemma occurs_app_l : forall p a b i, occurs_at p a i -> occurs_at p (a ++ b) i.
Proof. intros p a b i (x & y & -> & L). exists x, (y ++ b). split; auto. now rewrite <- !app_assoc. Qed.
Lemma occurs_app_r : forall p a b i, occurs_at p b i -> occurs_at p (a ++ b) (length a + i).
Proof. intros p a b i (x & y & -> & L). exists (a ++ x), y. split; [now rewrite <- !app_assoc|]. rewrite app_length. lia. Qed.
Lemma occurs_len : forall p s i, occurs_at p s i -> i + length p <= length s.
Proof. intros p s i (x & y & -> & L). rewrite !app_length. lia. Qed.
Lemma cut_pieces : forall p s w, p <> [] -> cut_at p s w -> forall x, In x w -> ~ occurs p x.
Proof.
  intros p s w Np C. induction C; intros x I.
  - destruct I as [<-|[]]. auto.
  - destruct I as [<-|I]; [|auto].
    intros (i & O). pose proof (occurs_len _ _ _ O). apply (occurs_app_l _ _ (p ++ b)) in O. apply H in O.
    destruct p; [congruence|cbn in *; lia].
Qed.
Lemma cut_fun : forall p s w, cut_at p s w -> forall w', cut_at p s w' -> w = w'.
Proof.
  intros p s w C. induction C; intros w' C'.
  - inversion C'; subst; auto. exfalso. apply H. exists (length a), a, b. auto.
  - remember (a ++ p ++ b) as s eqn:E. destruct C' as [s0 N|a0 b0 w0 F C0].
    + exfalso. apply N. exists (length a), a, b. auto.
    + assert (length a = length a0).
      { assert (length a <= length a0).
        { apply H. exists a0, b0. auto. }
        assert (length a0 <= length a); [|lia].
        apply F. rewrite E. exists a, b. auto. }
      apply app_inj_length in E; [|auto]. destruct E as [-> E]. apply app_inv_head in E. subst b0.
      f_equal. auto.
Qed.

Lemma joints_cut : forall p, p <> [] -> forall w, w <> [] ->
  (forall i, occurs_at p (joined w p) i -> In i (joints w p)) -> cut_at p (joined w p) w.
Proof.
  intros p Np. assert (Lp : 1 <= length p) by (destruct p; [congruence|cbn; lia]).
  induction w as [|x w IH]; intros Nw H; [congruence|].
  destruct w as [|y w].
  - cbn in *. constructor. intros (i & O). apply (H i O).
  - change (joined (x :: y :: w) p) with (x ++ p ++ joined (y :: w) p) in *. constructor.
    + intros i O. apply H in O. cbn [joints] in O. destruct O as [<-|O]; auto.
      apply in_map_iff in O. destruct O as (j & <- & _). lia.
    + apply IH; [discriminate|]. intros i O.
      pose proof (occurs_app_r p (x ++ p) _ i O) as O'. rewrite <- app_assoc in O'. apply H in O'.
      rewrite app_length in O'. cbn [joints] in O'. destruct O' as [E|O']; [lia|].
      apply in_map_iff in O'. destruct O' as (j & E & I). assert (j = i) by lia. subst. auto.
Qed.

Lemma collapse_sep_joined : forall v sep, collapse_sep v sep = joined v sep.
Proof.
  intros v sep. unfold collapse_sep.
  assert (G : forall v r, fst (fold_left (fun '(r, first) s => ((if first : bool then r else r ++ sep) ++ s, false)) v (r, false))
     = r ++ (match v with [] => [] | _ => sep ++ joined v sep end)).
  { induction v0 as [|x v0 IH]; intros r; cbn [fold_left fst].
    - now rewrite app_nil_r.
    - rewrite IH, <- !app_assoc. do 2 f_equal. destruct v0; cbn; [now rewrite app_nil_r|auto]. }
  destruct v as [|x v]; auto. cbn [fold_left]. rewrite G. cbn. destruct v; cbn; [now rewrite app_nil_r|auto].
Qed.
Lemma collapse_concat : forall v, collapse v = concat v.
Proof.
  intros v. unfold collapse. assert (G : forall v (r : list ascii), fold_left (fun r s => r ++ s) v r = r ++ concat v).
  { induction v0; intros r; cbn; [now rewrite app_nil_r|]. now rewrite IHv0, <- app_assoc. }
  now rewrite G.
Qed.

(* replace *)
Lemma replace_loop_ok : forall p rep, p <> [] -> forall fuel u s, length s <= fuel ->
  exists w, replace_loop fuel p rep (u ++ s) (sfind p (u ++ s) (length u)) = Ok (u ++ joined w rep) /\ cut_at p s w.
Proof.
  intros p rep Np. assert (Lp : 1 <= length p) by (destruct p; [congruence|cbn; lia]).
  induction fuel; intros u s L; pose proof (sfind_spec p u s) as H; destruct (sfind p (u ++ s) (length u)) as [k|].
  - destruct H as (a & b & -> & _). rewrite !app_length in L. lia.
  - cbn. exists [s]. split; auto. constructor. auto.
  - destruct H as (a & b & -> & -> & H). cbn [replace_loop].
    assert (E1 : firstn (length u + length a) (u ++ a ++ p ++ b) = u ++ a).
    { replace (length u + length a) with (length (u ++ a)) by now rewrite app_length.
      rewrite app_assoc. apply firstn_len_app. }
    assert (E2 : skipn (length u + length a + length p) (u ++ a ++ p ++ b) = b).
    { replace (length u + length a + length p) with (length (u ++ a ++ p)) by (rewrite !app_length; lia).
      replace (u ++ a ++ p ++ b) with ((u ++ a ++ p) ++ b) by now rewrite <- !app_assoc. apply skipn_len_app. }
    rewrite E1, E2.
    replace ((u ++ a) ++ rep ++ b) with ((u ++ a ++ rep) ++ b) by now rewrite <- !app_assoc.
    replace (length u + length a + length rep) with (length (u ++ a ++ rep)) by (rewrite !app_length; lia).
    destruct (IHfuel (u ++ a ++ rep) b) as (w & E & C); [rewrite !app_length in L; lia|].
    exists (a :: w). rewrite E. split; [|constructor; auto].
    rewrite <- !app_assoc. do 2 f_equal. pose proof (cut_nonempty _ _ _ C). destruct w; [congruence|]. reflexivity.
  - cbn. exists [s]. split; auto. constructor. auto.
Qed.

Lemma replace_ok : forall s p rep, p <> [] -> exists w, replace s p rep = Ok (joined w rep) /\ cut_at p s w.
Proof.
  intros. destruct (replace_loop_ok p rep H (length s) [] s) as (w & E & C); auto. exists w. auto.
Qed.

Lemma replace_empty : forall fuel rep s k, k <= length s -> replace_loop fuel [] rep s (Some k) = Diverge.
Proof.
  induction fuel; intros rep s k L; cbn [replace_loop]; auto.
  assert (Ls : length (firstn k s ++ rep ++ skipn (k + length (@nil ascii)) s) = length s + length rep).
  { rewrite !app_length, firstn_length, skipn_length. cbn. lia. }
  rewrite sfind_empty by lia. apply IHfuel. lia.
Qed.

(* character classes *)
Lemma has_In : forall chars c, has chars c = true <-> In c chars.
Proof.
  intros. unfold has. rewrite existsb_exists. split.
  - intros (x & I & E). apply Ascii.eqb_eq in E. now subst.
  - intros I. exists c. split; auto. apply Ascii.eqb_refl.
Qed.
Lemma hasnt_In : forall chars c, hasnt chars c = true <-> ~ In c chars.
Proof. intros. unfold hasnt. rewrite Bool.negb_true_iff, <- has_In. destruct (has chars c); split; congruence. Qed.
Lemma has_false : forall chars c, has chars c = false <-> ~ In c chars.
Proof. intros. rewrite <- has_In. destruct (has chars c); split; congruence. Qed.
Lemma hasnt_false : forall chars c, hasnt chars c = false <-> In c chars.
Proof. intros. rewrite <- has_In. unfold hasnt. destruct (has chars c); cbn; split; congruence. Qed.

Lemma first_at_spec : forall p s i,
  match first_at p s i with
  | Some k => exists a c b, s = a ++ c :: b /\ k = i + length a /\ p c = true /\ forall x, In x a -> p x = false
  | None => forall x, In x s -> p x = false
  end.
Proof.
  induction s as [|c s IH]; intros i; cbn; [tauto|].
  destruct (p c) eqn:E.
  - exists [], c, s. split; auto. split; [cbn; lia|]. split; auto. intros x [].
  - specialize (IH (S i)). destruct (first_at p s (S i)).
    + destruct IH as (a & d & b & -> & -> & Pd & H). exists (c :: a), d, b. split; auto. split; [cbn; lia|]. split; auto.
      intros x [<-|I]; auto.
    + intros x [<-|I]; auto.
Qed.

Lemma last_at_spec : forall p s i acc,
  match last_at p s i acc with
  | Some k => (exists a c b, s = a ++ c :: b /\ k = i + length a /\ p c = true /\ forall x, In x b -> p x = false)
              \/ (acc = Some k /\ forall x, In x s -> p x = false)
  | None => acc = None /\ forall x, In x s -> p x = false
  end.
Proof.
  induction s as [|c s IH]; intros i acc; cbn.
  - destruct acc; [right|]; (split; [auto|intros ? []]).
  - specialize (IH (S i) (if p c then Some i else acc)).
    destruct (last_at p s (S i) (if p c then Some i else acc)) as [k|].
    + destruct IH as [(a & d & b & -> & -> & Pd & H)|(E & H)].
      * left. exists (c :: a), d, b. split; auto. split; [cbn; lia|]. auto.
      * destruct (p c) eqn:Pc.
        -- injection E as <-. left. exists [], c, s. split; [auto|split; [cbn; lia|auto]].
        -- right. split; auto. intros x [<-|I]; auto.
    + destruct IH as (E & H). destruct (p c) eqn:Pc; [discriminate|]. split; auto. intros x [<-|I]; auto.
Qed.

Lemma find_last_all : forall p s,
  match find_last p s None with
  | Some k => exists a c b, s = a ++ c :: b /\ k = length a /\ p c = true /\ forall x, In x b -> p x = false
  | None => forall x, In x s -> p x = false
  end.
Proof.
  intros p s. unfold find_last. pose proof (last_at_spec p s 0 None). destruct (last_at p s 0 None).
  - destruct H as [H|(E & _)]; [exact H|discriminate].
  - apply H.
Qed.

(* trim *)
Definition core (chars m : str) : Prop :=
  m = [] \/ (exists c t, m = c :: t /\ ~ In c chars) /\ (exists t c, m = t ++ [c] /\ ~ In c chars).

Lemma trim_end_ok : forall chars s, (s = [] \/ exists c t, s = c :: t /\ ~ In c chars) ->
  exists m b, trim_end chars s = Ok m /\ s = m ++ b /\ made_of chars b /\ core chars m.
Proof.
  intros chars s H. destruct s as [|c t].
  - exists [], []. cbn. repeat split; auto. intros ? []. left. auto.
  - destruct H as [H|(c' & t' & E & Nc)]; [discriminate|]. injection E as <- <-.
    unfold trim_end. pose proof (find_last_all (has chars) (c :: t)) as H1.
    destruct (find_last (has chars) (c :: t) None) as [spos|].
    + destruct (Nat.eqb_spec spos (length (c :: t) - 1)) as [Es|Es].
      * pose proof (find_last_all (hasnt chars) (c :: t)) as H2.
        destruct (find_last (hasnt chars) (c :: t) None) as [epos|].
        -- destruct H2 as (a & d & b & E & -> & Pd & Hb).
           exists (a ++ [d]), b. rewrite E. unfold erase. rewrite app_length. cbn [length].
           destruct (Nat.leb_spec (length a + 1) (length a + S (length b))); [|lia].
           split; [|split; [|split]].
           ++ f_equal. replace (length a + 1) with (length (a ++ [d])) by (rewrite app_length; cbn; lia).
              replace (a ++ d :: b) with ((a ++ [d]) ++ b) by now rewrite <- app_assoc.
              rewrite firstn_len_app. rewrite skipn_all2; [apply app_nil_r|].
              rewrite !app_length. cbn. lia.
           ++ now rewrite <- app_assoc.
           ++ intros x I. apply hasnt_false. auto.
           ++ right. split.
              ** destruct a as [|a0 a]; cbn in E; injection E as -> _.
                 --- exists d, []. auto.
                 --- exists a0, (a ++ [d]). auto.
              ** exists a, d. split; auto. now apply hasnt_In.
        -- specialize (H2 c (or_introl eq_refl)). apply hasnt_false in H2. contradiction.
      * exists (c :: t), []. rewrite app_nil_r. split; auto. split; auto. split; [intros ? []|]. right. split; eauto.
        destruct H1 as (a & d & b & E & -> & Pd & Hb).
        destruct (exists_last (l := c :: t)) as (u & z & Ez); [discriminate|]. exists u, z. split; auto.
        destruct (exists_last (l := b)) as (b' & z' & Eb).
        { intros ->. apply Es. rewrite E, app_length. cbn. lia. }
        assert (z = z').
        { rewrite Eb in E. rewrite Ez in E. change (d :: b' ++ [z']) with ((d :: b') ++ [z']) in E. rewrite app_assoc in E.
          apply app_inj_tail in E. tauto. }
        subst z'. apply has_false. apply Hb. rewrite Eb. apply in_or_app. right. now left.
    + exists (c :: t), []. rewrite app_nil_r. split; auto. split; auto. split; [intros ? []|]. right. split; eauto.
      destruct (exists_last (l := c :: t)) as (u & z & Ez); [discriminate|]. exists u, z. split; auto.
      apply has_false, H1. rewrite Ez. apply in_or_app. right. now left.
Qed.

Lemma trim_ok : forall s chars, exists m, trim s chars = Ok m /\
  (exists a b, s = a ++ m ++ b /\ made_of chars a /\ made_of chars b) /\ core chars m.
Proof.
  intros s chars. unfold trim.
  assert (NoLead : (s = [] \/ exists c t, s = c :: t /\ ~ In c chars) ->
     exists m, trim_end chars s = Ok m /\ (exists a b, s = a ++ m ++ b /\ made_of chars a /\ made_of chars b) /\ core chars m).
  { intros H. destruct (trim_end_ok chars s H) as (m & b & E & S & B & C). exists m. split; auto. split; auto.
    exists [], b. split; auto. split; auto. intros ? []. }
  cbn [find_first skipn]. pose proof (first_at_spec (has chars) s 0) as H1.
  destruct (first_at (has chars) s 0) as [[|k]|].
  - pose proof (first_at_spec (hasnt chars) s 0) as H2. destruct (first_at (hasnt chars) s 0) as [epos|].
    + destruct H2 as (a & c & b & -> & -> & Pc & Ha). cbn [Nat.add].
      rewrite substr_tail. cbn [obind].
      destruct (trim_end_ok chars (c :: b)) as (m & b' & E & S & B & C).
      { right. exists c, b. split; auto. now apply hasnt_In. }
      exists m. split; auto. split; auto. exists a, b'. rewrite <- S. split; auto. split; auto.
      intros x I. apply hasnt_false. auto.
    + exists []. split; auto. split; [|now left]. exists s, []. rewrite app_nil_r. split; auto.
      split; [|intros ? []]. intros x I. apply hasnt_false. auto.
  - apply NoLead. destruct H1 as (a & c & b & -> & E & Pc & Ha). destruct a as [|x a]; [cbn in E; lia|].
    right. exists x, (a ++ c :: b). split; auto. apply has_false, Ha. now left.
  - apply NoLead. destruct s as [|c s]; auto. right. exists c, s. split; auto. apply has_false, H1. now left.
Qed.

Lemma trim_core : forall s chars, core chars s -> trim s chars = Ok s.
Proof.
  intros s chars [->|((c & t & E & Nc) & (u & d & E' & Nd))].
  - reflexivity.
  - destruct (trim_ok s chars) as (m & Em & (a & b & S & A & B) & _). rewrite Em. f_equal.
    assert (a = []).
    { destruct a as [|x a]; auto. rewrite S in E. injection E as -> _. exfalso. apply Nc, A. now left. }
    assert (b = []).
    { destruct b as [|y b0] eqn:Eb; auto. exfalso.
      destruct (exists_last (l := y :: b0)) as (b' & z & Ez); [discriminate|].
      assert (z = d).
      { rewrite Ez in S. rewrite S in E'. rewrite !app_assoc in E'. apply app_inj_tail in E'. tauto. }
      subst z. apply Nd, B. rewrite Ez. apply in_or_app. right. now left. }
    subst a b. now rewrite S, app_nil_r.
Qed.
