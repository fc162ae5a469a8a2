From Coq Require Import Ascii String.
From Verif Require Import Base StrModel StrSpec StrProofs ArgvModel ArgvSpec.
Local Open Scope nat_scope.

(* --- strip ------------------------------------------------------------------ *)
Lemma drop_made : forall chars a x, made_of chars a -> drop_first chars (a ++ x) = drop_first chars x.
Proof.
  induction a as [|c a IH]; intros x M; cbn; auto.
  destruct (in_dec ascii_dec c chars) as [I|N]; [|exfalso; apply N, M; now left].
  apply IH. intros y I'. apply M. now right.
Qed.
Lemma drop_keep : forall chars c t, ~ In c chars -> drop_first chars (c :: t) = c :: t.
Proof. intros. cbn. destruct (in_dec ascii_dec c chars); tauto. Qed.
Lemma drop_all : forall chars a, made_of chars a -> drop_first chars a = [].
Proof. intros. rewrite <- (app_nil_r a). rewrite drop_made; auto. Qed.
Lemma made_rev : forall chars a, made_of chars a -> made_of chars (rev a).
Proof. intros chars a M c I. apply M. now apply in_rev. Qed.
Lemma strip_of : forall chars a m b, made_of chars a -> made_of chars b -> core chars m ->
  strip chars (a ++ m ++ b) = m.
Proof.
  intros chars a m b A B [->|((c & t & E & Nc) & (u & d & E' & Nd))]; unfold strip.
  - rewrite (drop_made chars a) by auto. cbn [app]. rewrite (drop_all chars b) by auto. reflexivity.
  - rewrite (drop_made chars a) by auto. rewrite E at 1. cbn [app]. rewrite drop_keep by auto.
    change (c :: t ++ b) with ((c :: t) ++ b). rewrite <- E, rev_app_distr, drop_made by now apply made_rev.
    rewrite E', rev_app_distr. cbn [rev app]. rewrite drop_keep by auto.
    cbn [rev]. now rewrite rev_involutive.
Qed.
Lemma trim_strip : forall s chars, trim s chars = Ok (strip chars s).
Proof.
  intros s chars. destruct (trim_ok s chars) as (m & E & (a & b & S & A & B) & C).
  rewrite E, S. now rewrite strip_of.
Qed.
Lemma strip_core : forall chars m, core chars m -> strip chars m = m.
Proof.
  intros chars m C. rewrite <- (app_nil_r m) at 1. change (m ++ []) with ([] ++ m ++ []).
  apply strip_of; auto; intros ? [].
Qed.
Lemma core_strip : forall chars s, core chars (strip chars s).
Proof.
  intros chars s. destruct (trim_ok s chars) as (m & E & _ & C). rewrite trim_strip in E. now injection E as ->.
Qed.
Lemma strip_split : forall chars s, exists a b, s = a ++ strip chars s ++ b /\ made_of chars a /\ made_of chars b.
Proof.
  intros chars s. destruct (trim_ok s chars) as (m & E & H & C). rewrite trim_strip in E. now injection E as ->.
Qed.
Lemma strip_idem : forall chars s, strip chars (strip chars s) = strip chars s.
Proof. intros. apply strip_core, core_strip. Qed.

(* --- the first occurrence of a character ------------------------------------- *)
Lemma after_some : forall c s t, after c s = Some t -> s = before c s ++ c :: t.
Proof.
  induction s as [|a s IH]; cbn; [discriminate|]. intros t. destruct (ascii_dec a c) as [->|N].
  - intros [= ->]. reflexivity.
  - intros H. cbn. f_equal. auto.
Qed.
Lemma before_none : forall c s, ~ In c (before c s).
Proof.
  induction s as [|a s IH]; cbn; auto. destruct (ascii_dec a c); cbn; [tauto|]. intros [?|?]; auto.
Qed.
Lemma after_none : forall c s, after c s = None <-> ~ In c s.
Proof.
  induction s as [|a s IH]; cbn; [tauto|]. destruct (ascii_dec a c) as [->|N].
  - split; [discriminate|tauto].
  - rewrite IH. split; [intros H [E|I]; tauto|tauto].
Qed.
Lemma before_all : forall c s, ~ In c s -> before c s = s.
Proof.
  induction s as [|a s IH]; cbn; auto. intros N. destruct (ascii_dec a c); [tauto|]. f_equal. tauto.
Qed.
Lemma after_app : forall c a t, ~ In c a -> after c (a ++ c :: t) = Some t /\ before c (a ++ c :: t) = a.
Proof.
  induction a as [|x a IH]; intros t N; cbn.
  - destruct (ascii_dec c c); [auto|tauto].
  - cbn in N. destruct (ascii_dec x c); [tauto|]. destruct (IH t) as [-> ->]; tauto.
Qed.
Lemma first_at_char : forall c s i,
  first_at (has [c]) s i = match after c s with Some _ => Some (i + length (before c s)) | None => None end.
Proof.
  induction s as [|a s IH]; intros i; cbn; auto. rewrite Bool.orb_false_r.
  destruct (ascii_dec a c) as [->|N].
  - rewrite Ascii.eqb_refl. cbn. f_equal. lia.
  - destruct (Ascii.eqb_spec a c); [contradiction|]. rewrite IH. destruct (after c s); auto. cbn. f_equal. lia.
Qed.
Lemma find_charE : forall c s,
  find_char c s = match after c s with Some _ => Some (length (before c s)) | None => None end.
Proof. intros. unfold find_char. cbn [find_first skipn]. now rewrite first_at_char. Qed.

(* --- arguments ---------------------------------------------------------------- *)
Lemma blanks_eq : blanks = blank_chars. Proof. reflexivity. Qed.
Lemma quotes_eq : quotes = quote_chars. Proof. reflexivity. Qed.
Lemma undash_dashed : forall s, undash s = if dashed s then skipn 1 s else s.
Proof.
  destruct s as [|c s]; auto. cbn. destruct (ascii_dec c "-"%char) as [->|N]; auto.
  destruct (Ascii.eqb_spec c "-"%char); [contradiction|auto].
Qed.
Lemma arg_forE : forall a n, arg_for a n = Ok (if is_for n a then Some (after "="%char a) else None).
Proof.
  intros a n. unfold arg_for, is_for, arg_name. rewrite find_charE.
  destruct (after "="%char a) as [v|] eqn:A.
  - pose proof (after_some _ _ _ A) as E. pose proof (before_none "="%char a) as N.
    set (b := before "="%char a) in *. clearbody b. subst a.
    assert (X : substr (b ++ "="%char :: v) (if dashed (b ++ "="%char :: v) then 1 else 0)
       (length b - (if dashed (b ++ "="%char :: v) then 1 else 0)) = Ok (undash b)).
    { destruct b as [|c b]; cbn [app dashed]; [reflexivity|]. rewrite undash_dashed. cbn [dashed].
      destruct (Ascii.eqb c "-"%char).
      - unfold substr. cbn [length app Nat.leb skipn]. f_equal. rewrite Nat.sub_succ, Nat.sub_0_r. apply firstn_len_app.
      - unfold substr. cbn [Nat.leb skipn]. f_equal. rewrite Nat.sub_0_r.
        change (c :: b ++ "="%char :: v) with ((c :: b) ++ "="%char :: v). apply firstn_len_app. }
    rewrite X. cbn [obind]. rewrite trim_strip, blanks_eq. cbn [obind].
    destruct (list_eq_dec ascii_dec (strip blank_chars (undash b)) n); auto.
    replace (length b + 1) with (length (b ++ ["="%char])) by (rewrite app_length; cbn; lia).
    replace (b ++ "="%char :: v) with ((b ++ ["="%char]) ++ v) by now rewrite <- app_assoc.
    rewrite substr_tail. reflexivity.
  - rewrite undash_dashed. destruct (dashed a) eqn:D.
    + unfold substr_end. destruct a as [|c a]; [discriminate|]. cbn [length Nat.leb obind skipn].
      destruct (list_eq_dec ascii_dec a n); auto.
    + cbn [obind]. destruct (list_eq_dec ascii_dec a n); auto.
Qed.

Lemma pieces_cut : forall s, cut_at [","%char] s (pieces s).
Proof.
  induction s as [|c s IH].
  - cbn. constructor. intros (i & a & b & E & _). destruct a; discriminate.
  - cbn. destruct (ascii_dec c ","%char) as [->|N].
    + change (","%char :: s) with ([] ++ [","%char] ++ s). constructor; auto. intros; cbn; lia.
    + revert IH. generalize (pieces s). intros w0 IH. destruct IH as [s No|a b w Le C].
      * constructor. intros (i & Oi). apply occurs_cons_inv in Oi. destruct Oi as [(_ & b & Eb)|(j & -> & Oj)].
        -- injection Eb as E _. now apply N.
        -- apply No. exists j. auto.
      * change (c :: a ++ [","%char] ++ b) with ((c :: a) ++ [","%char] ++ b). constructor; auto.
        intros i Oi. cbn. cbn [app] in Oi. apply occurs_cons_inv in Oi. destruct Oi as [(_ & b' & Eb)|(j & -> & Oj)].
        -- injection Eb as E _. now destruct N.
        -- specialize (Le j Oj). lia.
Qed.
Lemma split_pieces : forall s, split s [","%char] = Ok (pieces s).
Proof.
  intros s. destruct (split_ok s [","%char]) as (w & E & C); [discriminate|]. rewrite E. f_equal.
  eapply cut_fun; eauto. apply pieces_cut.
Qed.

Lemma read_elemsE : forall E (p : list ascii -> option E) l acc,
  read_elems p l acc = Ok (option_map (app acc) (sequence (map (fun x => p (clean x)) l))).
Proof.
  induction l as [|s l IH]; intros acc; cbn [read_elems map sequence].
  - cbn. now rewrite app_nil_r.
  - rewrite trim_strip. cbn [obind]. rewrite trim_strip. cbn [obind]. rewrite blanks_eq, quotes_eq.
    fold (clean s). destruct (p (clean s)) as [x|]; cbn [sequence option_map]; auto.
    rewrite IH. destruct (sequence _); cbn [option_map]; auto. now rewrite <- app_assoc.
Qed.

Lemma last_rev : forall A (x : A) l d, last (l ++ [x]) d = x.
Proof. intros. apply last_last. Qed.
Lemma read_vecE : forall E (p : list ascii -> option E) s,
  exists b, read_vec p (strip blank_chars s) = Ok (values p (strip blank_chars s), b) /\
    (values p (strip blank_chars s) = None -> (b = true <-> listed (strip blank_chars s) <> None)).
Proof.
  intros E p s. set (v := strip blank_chars s). assert (Ev : strip blank_chars v = v) by apply strip_idem.
  clearbody v.
  assert (Plain : (s <- trim v blanks ;; s <- trim s quotes ;;
          Ok (match p s with Some x => Some [x] | None => None end, false)) =
          Ok (option_map (fun x => [x]) (p (clean v)), false)).
  { rewrite trim_strip. cbn [obind]. rewrite trim_strip. cbn [obind]. rewrite blanks_eq, quotes_eq. fold (clean v).
    destruct (p (clean v)); reflexivity. }
  destruct v as [|c body]; unfold read_vec, values.
  - exists false. cbn [listed]. rewrite Plain. split; auto. intros _. split; [discriminate|tauto].
  - destruct (Ascii.eqb_spec c "["%char) as [->|N].
    2:{ cbn [andb]. exists false. rewrite Plain.
        assert (L : listed (c :: body) = None).
        { cbn. destruct c as [[] [] [] [] [] [] [] []]; auto; now destruct N. }
        rewrite L. split; auto. intros _. split; [discriminate|tauto]. }
    cbn [andb]. destruct body as [|c0 b0] eqn:Eb using rev_ind; [|clear IHb0].
    + cbn [last]. change (Ascii.eqb "["%char "]"%char) with false. exists false. rewrite Plain. cbn. split; auto.
      intros _. split; [discriminate|tauto].
    + clear Eb. change ("["%char :: b0 ++ [c0]) with (("["%char :: b0) ++ [c0]). rewrite last_rev. cbn [app listed].
      rewrite rev_app_distr. cbn [rev app].
      destruct (Ascii.eqb_spec c0 "]"%char) as [->|N].
      * rewrite rev_involutive, removelast_last.
        destruct b0 as [|c1 b1]; cbn [app].
        -- exists false. split; auto. discriminate.
        -- rewrite split_pieces. cbn [obind]. rewrite read_elemsE. cbn [obind]. exists true. split.
           ++ f_equal. f_equal. destruct (sequence _); reflexivity.
           ++ intros _. split; [discriminate|auto].
      * assert (L : match c0 with "]"%char => Some (rev (rev b0)) | _ => None end = None).
        { destruct c0 as [[] [] [] [] [] [] [] []]; auto; now destruct N. }
        rewrite L. exists false. cbn [app] in Plain. rewrite Plain. split; auto.
        intros _. split; [discriminate|tauto].
Qed.

Lemma write_vecE : forall l, write_vec l = lit "[" ++ list_text l ++ lit "]".
Proof.
  intros l. unfold write_vec. do 2 f_equal.
  assert (G : forall l s i, 0 < i -> fst (fold_left (fun '(s, i) x => ((if 0 <? i then s ++ lit "," else s) ++ x, i + 1)) l (s, i)) =
     s ++ concat (map (fun x => lit "," ++ x) l)).
  { induction l0 as [|x l0 IH]; intros s i Hi; cbn [fold_left map concat].
    - now rewrite app_nil_r.
    - destruct (Nat.ltb_spec 0 i); [|lia]. rewrite IH by lia. now rewrite <- !app_assoc. }
  destruct l as [|x l]; auto. cbn [fold_left Nat.ltb Nat.leb]. rewrite G by lia. cbn [app list_text].
  clear G. revert x. induction l as [|y l IH]; intros x; cbn [map concat]; [now rewrite app_nil_r|].
  specialize (IH y). rewrite <- !app_assoc. rewrite IH. reflexivity.
Qed.
Lemma write_argE : forall V (show : V -> text_t) (t : var V), write_arg show t = var_text show t.
Proof. intros V show t. destruct t; cbn [write_arg var_text]; auto; apply write_vecE. Qed.

Section Vars.
Context {V : Type} (parse : text_t -> option V) (left : text_t -> V -> V) (one : V).
Local Notation assigned := (assigned parse one).
Local Notation read_impl := (read_impl parse left one).

Lemma read_implE : forall a n r v t,
  read_impl a n r v t = Ok (
    if is_for n a then
      match assigned t a with
      | Some t' => (true, true, true, t')
      | None => (counted t a, true, false, spoiled left t a)
      end
    else (false, r, v, t)).
Proof.
  intros a n r v t. unfold ArgvModel.read_impl. rewrite arg_forE. cbn [obind].
  destruct (is_for n a); auto. unfold ArgvSpec.assigned, spoiled, counted.
  destruct (after "="%char a) as [w|].
  2:{ destruct t; reflexivity. }
  rewrite trim_strip, blanks_eq. cbn [obind].
  destruct t as [x|x|x|x].
  - rewrite trim_strip, quotes_eq. cbn [obind]. fold (clean w). destruct (parse (clean w)); reflexivity.
  - rewrite trim_strip, quotes_eq. reflexivity.
  - destruct (read_vecE _ parse w) as (b & E & H). rewrite E. cbn [obind].
    destruct (values parse (strip blank_chars w)); cbn [option_map]; auto. specialize (H eq_refl).
    destruct (listed (strip blank_chars w)), b; auto; exfalso.
    + assert (false = true) by (apply H; discriminate). discriminate.
    + now apply H.
  - destruct (read_vecE _ (@Some _) w) as (b & E & H). rewrite E. cbn [obind].
    destruct (values (@Some _) (strip blank_chars w)); cbn [option_map]; auto. specialize (H eq_refl).
    destruct (listed (strip blank_chars w)), b; auto; exfalso.
    + assert (false = true) by (apply H; discriminate). discriminate.
    + now apply H.
Qed.

End Vars.
