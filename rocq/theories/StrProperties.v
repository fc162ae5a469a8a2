(* C28 split/collapse, C29 replace, C30 trim, C31 align, C32 distance, C33 cut/get_word,
   C55 split_any_of, C56 prefixes and suffixes, C57 replace_block, C58 wrap. *)
From Coq Require Import Ascii String.
From Verif Require Import Base StrModel StrSpec StrProofs StrProofs2 StrProofs3.
Local Open Scope list_scope.
Definition lit (s : string) : list ascii := list_ascii_of_string s.
Notation length := List.length.

(* --- C28 ---------------------------------------------------------------------- *)
(* split cuts at the successive leftmost occurrences of the separator *)
Theorem C28_split : forall s sep, sep <> [] -> exists w, split s sep = Ok w /\ cut_at sep s w.
Proof. exact split_ok. Qed.
Print Assumptions C28_split.
Theorem C28_cut_at_unique : forall sep s w, cut_at sep s w -> forall w', cut_at sep s w' -> w = w'.
Proof. exact cut_fun. Qed.
Print Assumptions C28_cut_at_unique.
Theorem C28_round_trip : forall s sep w, sep <> [] -> split s sep = Ok w ->
  collapse_sep w sep = s /\ w <> [] /\ forall x, In x w -> ~ occurs sep x.
Proof.
  intros s sep w N E. destruct (split_ok s sep N) as (w' & E' & C). assert (w' = w) by congruence. subst.
  split; [rewrite collapse_sep_joined; now apply cut_joined|]. split; [eapply cut_nonempty; eauto|].
  eapply cut_pieces; eauto.
Qed.
Print Assumptions C28_round_trip.
(* the other way round: when the separator occurs in the joined text only at the joints *)
Theorem C28_split_collapse : forall w sep, sep <> [] -> w <> [] ->
  (forall i, occurs_at sep (joined w sep) i -> In i (joints w sep)) ->
  split (collapse_sep w sep) sep = Ok w.
Proof.
  intros w sep N Nw H. rewrite collapse_sep_joined. destruct (split_ok (joined w sep) sep N) as (w' & E & C).
  rewrite E. f_equal. eapply cut_fun; eauto. apply joints_cut; auto.
Qed.
Print Assumptions C28_split_collapse.
Theorem C28_collapse : forall v sep, collapse v = concat v /\ collapse_sep v sep = joined v sep.
Proof. intros. split; [apply collapse_concat|apply collapse_sep_joined]. Qed.
Print Assumptions C28_collapse.
Theorem C28_empty_separator_diverges : forall fuel s, split_loop fuel s [] [] 0 = Diverge.
Proof. intros. apply split_empty. Qed.
Print Assumptions C28_empty_separator_diverges.
(* a piece may join with the separator into an earlier occurrence *)
Theorem C28_split_collapse_refuted : exists w sep, sep <> [] /\ (forall x, In x w -> ~ occurs sep x) /\
  split (collapse_sep w sep) sep <> Ok w.
Proof.
  exists [lit "a"; lit "b"], (lit "aa"). split; [discriminate|]. split.
  - intros x I (i & a & b & E & _). apply (f_equal (@length _)) in E. rewrite !app_length in E.
    destruct I as [<-|[<-|[]]]; cbn in E; lia.
  - vm_compute. discriminate.
Qed.
Print Assumptions C28_split_collapse_refuted.
Example C28_ex : split (lit "a,,b,") (lit ",") = Ok [lit "a"; lit ""; lit "b"; lit ""] /\
  split (lit "aaaa") (lit "aaa") = Ok [lit ""; lit "a"].
Proof. split; reflexivity. Qed.

(* --- C29 ---------------------------------------------------------------------- *)
Theorem C29_replace : forall s pat rep, pat <> [] ->
  exists w, cut_at pat s w /\ replace s pat rep = Ok (joined w rep).
Proof. intros s pat rep N. destruct (replace_ok s pat rep N) as (w & E & C). eauto. Qed.
Print Assumptions C29_replace.
Theorem C29_identity : forall s pat rep, pat <> [] -> (~ occurs pat s \/ rep = pat) -> replace s pat rep = Ok s.
Proof.
  intros s pat rep N H. destruct (replace_ok s pat rep N) as (w & E & C). rewrite E. f_equal. destruct H as [H| ->].
  - assert (w = [s]) by (eapply cut_fun; eauto; now constructor). subst. reflexivity.
  - now apply cut_joined.
Qed.
Print Assumptions C29_identity.
(* replace is split then collapse *)
Theorem C29_split_collapse : forall s pat rep, pat <> [] ->
  replace s pat rep = omap (fun w => collapse_sep w rep) (split s pat).
Proof.
  intros s pat rep N. destruct (replace_ok s pat rep N) as (w & E & C). destruct (split_ok s pat N) as (w' & E' & C').
  rewrite E, E'. cbn. rewrite collapse_sep_joined. f_equal. f_equal. eapply cut_fun; eauto.
Qed.
Print Assumptions C29_split_collapse.
Theorem C29_empty_pattern_diverges : forall fuel s rep, replace_loop fuel [] rep s (sfind [] s 0) = Diverge.
Proof. intros. rewrite sfind_empty by lia. apply replace_empty. lia. Qed.
Print Assumptions C29_empty_pattern_diverges.
Example C29_ex : replace (lit "aaa") (lit "a") (lit "aa") = Ok (lit "aaaaaa") /\
  replace (lit "abcabc") (lit "bc") (lit "") = Ok (lit "aa").
Proof. split; reflexivity. Qed.

(* --- C30 ---------------------------------------------------------------------- *)
Theorem C30_trim : forall s chars, exists m, trim s chars = Ok m /\
  (exists a b, s = a ++ m ++ b /\ made_of chars a /\ made_of chars b) /\
  (m = [] \/ (exists c t, m = c :: t /\ ~ In c chars) /\ (exists t c, m = t ++ [c] /\ ~ In c chars)).
Proof. exact trim_ok. Qed.
Print Assumptions C30_trim.
Theorem C30_idempotent : forall s chars m, trim s chars = Ok m -> trim m chars = Ok m.
Proof.
  intros s chars m E. destruct (trim_ok s chars) as (m' & E' & _ & C). assert (m' = m) by congruence. subst.
  now apply trim_core.
Qed.
Print Assumptions C30_idempotent.
(* nothing but the outer characters: such a middle part is unique *)
Theorem C30_unchanged : forall s chars,
  (exists c t, s = c :: t /\ ~ In c chars) -> (exists t c, s = t ++ [c] /\ ~ In c chars) -> trim s chars = Ok s.
Proof. intros. apply trim_core. right. auto. Qed.
Print Assumptions C30_unchanged.
Example C30_ex : trim (lit "  a b ") (lit " ") = Ok (lit "a b") /\ trim (lit "   ") (lit " ") = Ok [] /\
  trim [] (lit " ") = Ok [] /\ trim (lit "ab") (lit " ") = Ok (lit "ab").
Proof. repeat split; reflexivity. Qed.

(* --- C31 ---------------------------------------------------------------------- *)
Theorem C31_align_left : forall s width fill, exists k,
  align_left s width fill = s ++ repeat fill k /\ length (align_left s width fill) = Nat.max width (length s).
Proof.
  intros. unfold align_left. destruct (Nat.ltb_spec (length s) width).
  - exists (width - length s). split; auto. rewrite app_length, repeat_length. lia.
  - exists 0. cbn. rewrite app_nil_r. split; auto. lia.
Qed.
Print Assumptions C31_align_left.
Theorem C31_align_right : forall s width fill, exists k,
  align_right s width fill = repeat fill k ++ s /\ length (align_right s width fill) = Nat.max width (length s).
Proof.
  intros. unfold align_right. destruct (Nat.ltb_spec (length s) width).
  - exists (width - length s). split; auto. rewrite app_length, repeat_length. lia.
  - exists 0. cbn. split; auto. lia.
Qed.
Print Assumptions C31_align_right.
(* the two sides differ by at most one, the right one being the larger *)
Theorem C31_align_center : forall s width fill, exists k1 k2,
  align_center s width fill = repeat fill k1 ++ s ++ repeat fill k2 /\ k1 <= k2 <= k1 + 1 /\
  length (align_center s width fill) = Nat.max width (length s).
Proof.
  intros. unfold align_center. destruct (Nat.ltb_spec (length s) width).
  - exists ((width - length s) / 2), (width - length s - (width - length s) / 2). split; auto.
    pose proof (Nat.div_mod (width - length s) 2 ltac:(lia)). pose proof (Nat.mod_upper_bound (width - length s) 2 ltac:(lia)).
    split; [lia|]. rewrite !app_length, !repeat_length. lia.
  - exists 0, 0. cbn. rewrite app_nil_r. split; auto. split; lia.
Qed.
Print Assumptions C31_align_center.
Example C31_ex : align_center (lit "ab") 5 "."%char = lit ".ab.." /\ align_right (lit "ab") 4 "0"%char = lit "00ab"
  /\ align_left (lit "abc") 2 "."%char = lit "abc".
Proof. repeat split. Qed.

(* --- C32 ---------------------------------------------------------------------- *)
(* distance counts the positions at which the strings differ *)
Theorem C32_distance : forall t u f, (forall i, f i = true <-> nth_error t i <> nth_error u i) ->
  distance t u = Ok (length (filter f (seq 0 (Nat.max (length t) (length u))))).
Proof.
  intros t u f F. rewrite distance_ok. unfold ndiff. do 2 f_equal. apply filter_ext. intros i.
  destruct (differs t u i) eqn:D, (f i) eqn:Fi; auto; exfalso.
  - apply differs_iff, F in D. congruence.
  - apply F, differs_iff in Fi. congruence.
Qed.
Print Assumptions C32_distance.
Theorem C32_zero : forall t u, distance t u = Ok 0 <-> t = u.
Proof. exact distance_eq. Qed.
Print Assumptions C32_zero.
Theorem C32_symmetric : forall t u, distance t u = distance u t.
Proof. exact distance_sym. Qed.
Print Assumptions C32_symmetric.
Theorem C32_triangle : forall a b c, exists dab dbc dac,
  distance a b = Ok dab /\ distance b c = Ok dbc /\ distance a c = Ok dac /\ dac <= dab + dbc.
Proof. exact distance_triangle. Qed.
Print Assumptions C32_triangle.
Example C32_ex : distance (lit "abcd") (lit "axc") = Ok 2.
Proof. reflexivity. Qed.

(* --- C33 ---------------------------------------------------------------------- *)
Theorem C33_cut : forall s n, 0 < n -> exists w, cut s n = Ok w /\ length w = length s / n /\
  (forall x, In x w -> length x = n) /\ concat w = firstn (n * (length s / n)) s.
Proof. exact cut_ok. Qed.
Print Assumptions C33_cut.
Theorem C33_cut_exact : forall s n w, 0 < n -> length s mod n = 0 -> cut s n = Ok w -> concat w = s.
Proof.
  intros s n w Hn M E. destruct (cut_ok s n Hn) as (w' & E' & _ & _ & C). assert (w' = w) by congruence. subst.
  rewrite C. pose proof (Nat.div_mod (length s) n ltac:(lia)). apply firstn_all2. lia.
Qed.
Print Assumptions C33_cut_exact.
(* the remainder is lost *)
Theorem C33_cut_refuted : exists s n w, 0 < n /\ cut s n = Ok w /\ concat w <> s.
Proof. exists (lit "abcde"), 2, [lit "ab"; lit "cd"]. split; [lia|]. split; [reflexivity|discriminate]. Qed.
Print Assumptions C33_cut_refuted.
(* a float infinity or NaN is converted to an unsigned integer *)
Theorem C33_cut_zero : forall s, cut s 0 = UB.
Proof. reflexivity. Qed.
Print Assumptions C33_cut_zero.
Theorem C33_get_word : forall s chars ws n, words_of chars s ws ->
  match nth_error ws n with
  | Some w => s <> w -> get_word s (Z.of_nat n) chars = Ok w
  | None => get_word s (Z.of_nat n) chars = CheckFail
  end.
Proof.
  intros s chars ws n W. pose proof (get_word_fwd s chars ws n W) as H. destruct (nth_error ws n); [|auto]. apply H.
Qed.
Print Assumptions C33_get_word.
Theorem C33_get_word_from_end : forall s chars ws n, words_of chars s ws -> (Z.of_nat n + 1 < 2 ^ 31)%Z ->
  get_word s (- Z.of_nat n - 1) chars =
  match nth_error (rev ws) n with Some w => Ok w | None => CheckFail end.
Proof. exact get_word_bwd. Qed.
Print Assumptions C33_get_word_from_end.
(* a string that is one word: the word is lost *)
Theorem C33_get_word_refuted : forall s chars, s <> [] -> free_of chars s ->
  words_of chars s [s] /\ get_word s 0 chars = Ok [] /\ get_word s (-1) chars = Ok s.
Proof.
  intros s chars N F. assert (W : words_of chars s [s]).
  { rewrite <- (app_nil_r s) at 1. apply (words_one chars [] s [] []); auto. intros ? []. constructor. intros ? []. }
  split; [exact W|]. split.
  - apply (get_word_fwd s chars [s] 0 W). reflexivity.
  - apply (get_word_bwd s chars [s] 0 W). reflexivity.
Qed.
Print Assumptions C33_get_word_refuted.
Example C33_ex : get_word (lit " ab  cd ") 1 (lit " ") = Ok (lit "cd") /\ get_word (lit "ab cd") (-2) (lit " ") = Ok (lit "ab")
  /\ get_word (lit "ab cd") 2 (lit " ") = CheckFail /\ cut (lit "abcdef") 3 = Ok [lit "abc"; lit "def"].
Proof. repeat split; reflexivity. Qed.

(* --- C55 ---------------------------------------------------------------------- *)
Theorem C55_split_any_of : forall chars s, exists ws, split_any_of s chars = Ok ws /\ words_of chars s ws.
Proof. exact split_any_ok. Qed.
Print Assumptions C55_split_any_of.
Theorem C55_words_unique : forall chars s ws, words_of chars s ws -> forall ws', words_of chars s ws' -> ws = ws'.
Proof. exact words_fun. Qed.
Print Assumptions C55_words_unique.
Example C55_ex : split_any_of (lit " a, b,,c ") (lit ", ") = Ok [lit "a"; lit "b"; lit "c"] /\
  split_any_of (lit " ,") (lit ", ") = Ok [].
Proof. split; reflexivity. Qed.

(* --- C56 ---------------------------------------------------------------------- *)
Theorem C56_begins_with : forall s p, exists r, begins_with s p = Ok r /\ (r = true <-> exists b, s = p ++ b).
Proof. exact begins_with_ok. Qed.
Print Assumptions C56_begins_with.
Theorem C56_ends_with : forall s p, exists r, ends_with s p = Ok r /\ (r = true <-> exists a, s = a ++ p).
Proof. exact ends_with_ok. Qed.
Print Assumptions C56_ends_with.
Theorem C56_erase_begin : forall s p, (forall b, s = p ++ b -> erase_begin s p = Ok b) /\
  ((~ exists b, s = p ++ b) -> erase_begin s p = CheckFail).
Proof.
  intros s p. unfold erase_begin. destruct (begins_with_ok s p) as (r & E & R). rewrite E. cbn [obind]. split.
  - intros b Eb. assert (r = true) as -> by (apply R; eauto). cbn [check obind]. rewrite Eb. unfold erase.
    cbn. now rewrite skipn_len_app.
  - intros N. destruct r; [exfalso; apply N, R; auto|reflexivity].
Qed.
Print Assumptions C56_erase_begin.
Theorem C56_erase_end : forall s p, (forall a, s = a ++ p -> erase_end s p = Ok a) /\
  ((~ exists a, s = a ++ p) -> erase_end s p = CheckFail).
Proof.
  intros s p. unfold erase_end. destruct (ends_with_ok s p) as (r & E & R). rewrite E. cbn [obind]. split.
  - intros a Ea. assert (r = true) as -> by (apply R; eauto). cbn [check obind]. rewrite Ea. unfold erase.
    rewrite app_length. replace (length a + length p - length p) with (length a) by lia.
    destruct (Nat.leb_spec (length a) (length a + length p)); [|lia]. rewrite firstn_len_app, skipn_all2; [now rewrite app_nil_r|].
    rewrite app_length. lia.
  - intros N. destruct r; [exfalso; apply N, R; auto|reflexivity].
Qed.
Print Assumptions C56_erase_end.
Theorem C56_counts : forall s n,
  erase_begin_n s n = Ok (skipn n s) /\ erase_end_n s n = Ok (firstn (length s - n) s) /\
  keep_first s n = Ok (firstn n s) /\ keep_last s n = Ok (skipn (length s - n) s).
Proof.
  intros s n. unfold erase_begin_n, erase_end_n, keep_first, keep_last, erase.
  destruct (Nat.leb_spec (length s) n) as [L|L]; destruct (Nat.ltb_spec n (length s)) as [L'|L']; try lia.
  - rewrite (skipn_all2 s L), (firstn_all2 s L). replace (length s - n) with 0 by lia. auto.
  - assert (E1 : (length s - n <=? length s) = true) by (apply Nat.leb_le; lia).
    assert (E2 : (n <=? length s) = true) by (apply Nat.leb_le; lia). rewrite E1, E2.
    replace (length s - n + n) with (length s) by lia. replace (n + (length s - n)) with (length s) by lia.
    rewrite skipn_all, !app_nil_r. cbn. auto.
Qed.
Print Assumptions C56_counts.
Example C56_ex : begins_with (lit "abc") (lit "ab") = Ok true /\ ends_with (lit "abc") (lit "ab") = Ok false /\
  erase_end (lit "x.txt") (lit ".txt") = Ok (lit "x").
Proof. repeat split. Qed.

(* --- C57 ---------------------------------------------------------------------- *)
Theorem C57_replace_block : forall s bg en f, 1 <= length bg + length en ->
  match replace_block s bg en f with
  | Ok r => blocks_replaced bg en f s r
  | CheckFail => forall r, ~ blocks_replaced bg en f s r
  | _ => False
  end.
Proof.
  intros s bg en f L. pose proof (block_loop_ok bg en f L (S (length s)) [] s [] ltac:(lia)) as H.
  cbn [app length] in H. unfold replace_block.
  destruct (block_loop (S (length s)) s bg en f [] (sfind bg s 0) 0); auto.
  destruct H as (r' & -> & B). auto.
Qed.
Print Assumptions C57_replace_block.
Theorem C57_empty_marks_diverge : forall fuel s f, block_loop fuel s [] [] f [] (sfind [] s 0) 0 = Diverge.
Proof. intros. rewrite sfind_empty by lia. apply block_loop_empty. Qed.
Print Assumptions C57_empty_marks_diverge.
Example C57_ex : replace_block (lit "a{bc}d{}e") (lit "{") (lit "}") (fun x => rev x) = Ok (lit "acbde") /\
  replace_block (lit "a{b") (lit "{") (lit "}") (fun x => x) = CheckFail.
Proof. split; reflexivity. Qed.

(* --- C58 ---------------------------------------------------------------------- *)
(* wrap without ellipsis always ends, keeps every word in order, and each line after the indent
   is within the width or has no space at which it could be broken *)
Theorem C58_wrap : forall s width indent,
  exists bodies wss,
    wrap s width indent false = Ok (match bodies with [] => [] | b :: bs => b :: map (app indent) bs end) /\
    Forall2 (words_of blanks) bodies wss /\ words_of blanks s (concat wss) /\
    (forall b bs, bodies = b :: bs -> length b <= width \/ ~ In space b) /\
    (forall b bs x, bodies = b :: bs -> In x bs -> length indent <= width ->
        length x <= width - length indent \/ ~ In space x).
Proof.
  intros s width indent. unfold wrap.
  destruct (wrap_loop_ok width indent (length s) s [] (Some width) [] (le_n _)) as (bodies & wss & E & F & W & T1 & T2).
  exists bodies, wss. split; [rewrite E; reflexivity|]. split; [exact F|]. split; [exact W|]. split.
  - intros b bs Eb. exact (T1 b bs width Eb eq_refl).
  - exact T2.
Qed.
Print Assumptions C58_wrap.
(* an indent wider than the width: the subtraction wraps around and nothing more is broken *)
Theorem C58_wide_indent_refuted : exists s width indent l1 l2, wrap s width indent false = Ok [l1; l2] /\
  width < length l2 - length indent /\ In space (skipn (length indent) l2).
Proof.
  exists (lit "a bb cc dd"), 2, (lit "---"), (lit "a"), (lit "---bb cc dd"). split; [reflexivity|].
  split; [cbn; lia|]. cbn. auto.
Qed.
Print Assumptions C58_wide_indent_refuted.
(* the ellipsis loses text even when it is longer than what it replaces, and with a width below
   three the whole rest of the text is repeated *)
Theorem C58_ellipsis_refuted :
  wrap (lit "abc def") 2 [] true = Ok [lit "abc def..."; lit "def..."].
Proof. reflexivity. Qed.
Print Assumptions C58_ellipsis_refuted.
Example C58_ex : wrap (lit "the quick brown fox") 9 (lit "  ") false = Ok [lit "the quick"; lit "  brown"; lit "  fox"].
Proof. reflexivity. Qed.
