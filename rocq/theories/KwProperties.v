(* C128: keywords of a FITS header. *)
From Coq Require Import Ascii String Lia.
From Verif Require Import Base StrModel StrProofs FimgProofs3 KwModel KwSpec.
From Verif Require StrSpec.
Local Open Scope nat_scope.
Local Open Scope list_scope.

Lemma is_name_iff a b : is_name a b = true <-> a = b.
Proof. unfold is_name. destruct (list_eq_dec ascii_dec a b); split; congruence. Qed.
Lemma texts_app n a b : texts n (a ++ b) = texts n a ++ texts n b.
Proof. induction a as [|[m t] a IH]; [reflexivity|]. cbn. destruct (list_eq_dec ascii_dec m n); rewrite IH; reflexivity. Qed.
Lemma texts_same n t l : texts n ((n, t) :: l) = t :: texts n l.
Proof. cbn. destruct (list_eq_dec ascii_dec n n); congruence. Qed.
Lemma texts_other n m t l : m <> n -> texts n ((m, t) :: l) = texts n l.
Proof. intros N. cbn. destruct (list_eq_dec ascii_dec m n); congruence. Qed.
Lemma texts_nil n l : (forall i t, nth_error l i <> Some (n, t)) -> texts n l = [].
Proof.
  induction l as [|[m t] l IH]; intros H; [reflexivity|]. rewrite texts_other.
  - apply IH. intros i u. exact (H (S i) u).
  - intros ->. exact (H 0 t eq_refl).
Qed.
(* the card found *)
Lemma locate_some h n i : locate h n = Some i -> exists a t b, cards h = a ++ (n, t) :: b /\ List.length a = i.
Proof.
  intros E. apply find_some in E. destruct E as [_ E]. destruct (nth_error (cards h) i) as [[m t]|] eqn:X; [|discriminate].
  apply is_name_iff in E. cbn in E. subst m. apply nth_error_split in X. destruct X as (a & b & E & L). exists a, t, b. split; assumption.
Qed.
Lemma locate_none h n : locate h n = None -> texts n (cards h) = [].
Proof.
  intros E. apply texts_nil. intros i t X.
  assert (I : In i (seq (at_card h) (List.length (cards h) - at_card h) ++ seq 0 (at_card h))).
  { assert (L : i < List.length (cards h)) by (apply nth_error_Some; congruence). apply in_or_app.
    destruct (Nat.lt_ge_cases i (at_card h)); [right|left]; apply in_seq; lia. }
  pose proof (find_none _ _ E i I) as F. cbn in F. rewrite X in F. cbn in F. destruct (is_name n n) eqn:Y; [discriminate|].
  rewrite (proj2 (is_name_iff n n) eq_refl) in Y. discriminate.
Qed.
Lemma locate_texts h n : texts n (cards h) <> [] -> exists i a t b, locate h n = Some i /\ cards h = a ++ (n, t) :: b /\ List.length a = i.
Proof.
  intros N. destruct (locate h n) as [i|] eqn:E; [|apply locate_none in E; contradiction].
  destruct (locate_some h n i E) as (a & t & b & C & L). exists i, a, t, b. repeat split; assumption.
Qed.
Lemma trim_inside t : exists m, trim t (list_ascii_of_string " '") = Ok m /\ inside t m.
Proof.
  destruct (trim_ok t (list_ascii_of_string " '")) as (m & E & (a & b & S & A & B) & C). exists m. split; [exact E|].
  assert (M : forall l, StrSpec.made_of (list_ascii_of_string " '") l -> edge l).
  { intros l H c I. specialize (H c I). cbn in H. destruct H as [H|[H|[]]]; subst; tauto. }
  assert (K : forall c, ~ In c (list_ascii_of_string " '") -> bare c).
  { intros c H. split; intros ->; apply H; cbn; tauto. }
  split; [|exists a, b; repeat split; [exact S|apply M; exact A|apply M; exact B]].
  destruct C as [->|((c & r & E1 & N1) & (r' & c' & E2 & N2))]; [left; reflexivity|right].
  split; [exists c, r; split; [exact E1|apply K; exact N1]|exists r', c'; split; [exact E2|apply K; exact N2]].
Qed.
(* there is one such m *)
Lemma edge_bare l a c r x : edge l -> edge a -> bare c -> l ++ x = a ++ c :: r -> exists k, a = l ++ k.
Proof.
  revert a. induction l as [|y l IH]; intros a El Ea B E; [exists a; reflexivity|].
  destruct a as [|z a]; cbn in E.
  - injection E as -> _. destruct (El c (or_introl eq_refl)) as [->| ->]; destruct B; congruence.
  - injection E as -> E. destruct (IH a) as (k & ->); [intros v I; apply El; right; exact I|intros v I; apply Ea; right; exact I|exact B|exact E|]. exists k. reflexivity.
Qed.
Lemma edge_not a m b r : edge (a ++ m ++ b) -> m = r -> (exists c q, r = c :: q /\ bare c) -> False.
Proof.
  intros E -> (c & q & -> & B). destruct (E c) as [->| ->]; [apply in_or_app; right; left; reflexivity| |]; destruct B; congruence.
Qed.
Lemma edge_app a b : edge a -> edge b -> edge (a ++ b).
Proof. intros A B c I. apply in_app_or in I. destruct I; auto. Qed.
Lemma inside_unique t m m' : inside t m -> inside t m' -> m = m'.
Proof.
  intros (C & a & b & E & A & B) (C' & a' & b' & E' & A' & B'). rewrite E in E'.
  destruct C as [->|(H1 & H2)], C' as [->|(H1' & H2')]; [reflexivity| | |].
  - exfalso. apply (edge_not a' m' b' m'); [|reflexivity|exact H1']. rewrite <- E'. cbn. apply edge_app; assumption.
  - exfalso. apply (edge_not a m b m); [|reflexivity|exact H1]. rewrite E'. cbn. apply edge_app; assumption.
  - destruct H1 as (c & r & M & Bc), H1' as (c' & r' & M' & Bc'), H2 as (s & e & Ms & Be), H2' as (s' & e' & Ms' & Be').
    assert (a = a').
    { destruct (edge_bare a a' c' (r' ++ b') (m ++ b) A A' Bc') as (k & K). { rewrite E', M'. reflexivity. }
      destruct (edge_bare a' a c (r ++ b) (m' ++ b') A' A Bc) as (k' & K'). { rewrite <- E', M. reflexivity. }
      assert (L : List.length k = 0) by (apply (f_equal (@List.length _)) in K, K'; rewrite app_length in K, K'; lia).
      destruct k; [rewrite app_nil_r in K; congruence|discriminate]. }
    subst a'. apply app_inv_head in E'.
    apply (f_equal (@rev _)) in E'. rewrite !rev_app_distr, Ms, Ms', !rev_app_distr in E'. cbn in E'.
    assert (R : forall l, edge l -> edge (rev l)) by (intros l H x I; apply H, in_rev; exact I).
    assert (rev b = rev b').
    { destruct (edge_bare (rev b) (rev b') e' (rev s') (e :: rev s) (R b B) (R b' B') Be' E') as (k & K).
      destruct (edge_bare (rev b') (rev b) e (rev s) (e' :: rev s') (R b' B') (R b B) Be (eq_sym E')) as (k' & K').
      assert (L : List.length k = 0) by (apply (f_equal (@List.length _)) in K, K'; rewrite app_length in K, K'; lia).
      destruct k; [rewrite app_nil_r in K; congruence|discriminate]. }
    rewrite H in E'. apply app_inv_head in E'. injection E' as -> E'. apply (f_equal (@rev _)) in E'. rewrite !rev_involutive in E'. subst s'. congruence.
Qed.

(* --- reading ------------------------------------------------------------------- *)
Theorem C128_has : forall h name, fst (has_keyword h name) = true <-> texts name (cards h) <> [].
Proof.
  intros h n. unfold has_keyword. destruct (locate h n) as [i|] eqn:E.
  - destruct (locate_some h n i E) as (a & t & b & C & _). rewrite C, texts_app, texts_same. split; [|reflexivity]. intros _ X. apply app_eq_nil in X. destruct X; discriminate.
  - rewrite (locate_none h n E). cbn. split; [discriminate|congruence].
Qed.
Print Assumptions C128_has.
(* what is read is the text of a card of that name, without the blanks and quotes around it; the
   header does not change *)
Theorem C128_read : forall h name, texts name (cards h) <> [] ->
  exists t v h', read_string h name = Ok (true, v, h') /\ In t (texts name (cards h)) /\ inside t v /\ cards h' = cards h.
Proof.
  intros h n N. destruct (locate_texts h n N) as (i & a & t & b & E & C & L). destruct (trim_inside t) as (m & M & I).
  exists t, m, (Hdr (cards h) (i + 1)). unfold read_string. rewrite E. unfold oget. rewrite C, <- L.
  rewrite nth_error_app2, Nat.sub_diag by lia. cbn [nth_error obind snd]. rewrite M. cbn [obind]. split; [reflexivity|]. split; [|split; [exact I|reflexivity]].
  rewrite texts_app, texts_same. apply in_or_app. right. left. reflexivity.
Qed.
Print Assumptions C128_read.
(* with a single card of that name there is a single answer, however often and in whatever order
   keywords are read *)
Theorem C128_read_one : forall h name t v, texts name (cards h) = [t] -> inside t v ->
  exists h', read_string h name = Ok (true, v, h') /\ cards h' = cards h.
Proof.
  intros h n t v E I. destruct (C128_read h n) as (t' & v' & h' & R & It & J & C); [rewrite E; discriminate|].
  rewrite E in It. destruct It as [<-|[]]. rewrite (inside_unique t v v' I J). exists h'. split; assumption.
Qed.
Print Assumptions C128_read_one.
(* Finding: if there is no such keyword the string given for the value is cleared: it is not a
   default value. *)
Theorem C128_absent_refuted : forall h name, texts name (cards h) = [] -> read_string h name = Ok (false, [], h).
Proof.
  intros h n E. unfold read_string. destruct (locate h n) as [i|] eqn:X; [|reflexivity].
  destruct (locate_some h n i X) as (a & t & b & C & _). rewrite C, texts_app, texts_same in E. apply app_eq_nil in E. destruct E; discriminate.
Qed.
Print Assumptions C128_absent_refuted.
(* values of other types keep their value then *)
Theorem C128_absent : forall T (from_string : list ascii -> T -> bool * T) h name old, texts name (cards h) = [] ->
  read_keyword from_string h name old = Ok (false, old, h).
Proof. intros T f h n old E. unfold read_keyword. rewrite (C128_absent_refuted h n E). reflexivity. Qed.
Print Assumptions C128_absent.
(* values are converted from the text; T and F are read as 1 and 0 *)
Theorem C128_value : forall T (from_string : list ascii -> T -> bool * T) h name t v old, texts name (cards h) = [t] -> inside t v ->
  exists h', read_keyword from_string h name old =
    Ok (from_string (if list_eq_dec ascii_dec v ["T"%char] then ["1"%char] else if list_eq_dec ascii_dec v ["F"%char] then ["0"%char] else v) old, h') /\
    cards h' = cards h.
Proof.
  intros T f h n t v old E I. destruct (C128_read_one h n t v E I) as (h' & R & C). exists h'. split; [|exact C].
  unfold read_keyword. rewrite R. cbn [obind negb]. unfold is_name.
  destruct (list_eq_dec ascii_dec v ["T"%char]); [reflexivity|]. destruct (list_eq_dec ascii_dec v ["F"%char]); reflexivity.
Qed.
Print Assumptions C128_value.

(* --- writing ------------------------------------------------------------------- *)
(* one card has the new text, all others of that name are kept; the keyword is added if there is none *)
Theorem C128_write : forall h name text,
  (texts name (cards h) = [] /\ texts name (cards (write_keyword h name text)) = [text]) \/
  exists l1 t l2, texts name (cards h) = l1 ++ t :: l2 /\ texts name (cards (write_keyword h name text)) = l1 ++ text :: l2.
Proof.
  intros h n x. unfold write_keyword. destruct (locate h n) as [i|] eqn:E.
  - right. destruct (locate_some h n i E) as (a & t & b & C & <-). exists (texts n a), t, (texts n b). cbn [cards]. rewrite C, upd_mid, !texts_app, !texts_same. split; reflexivity.
  - left. pose proof (locate_none h n E) as Z. split; [exact Z|]. cbn [cards]. rewrite texts_app, Z, texts_same. reflexivity.
Qed.
Print Assumptions C128_write.
Theorem C128_add : forall h name text, texts name (cards (add_keyword h name text)) = texts name (cards h) ++ [text].
Proof. intros h n x. cbn [add_keyword cards]. rewrite texts_app, texts_same. reflexivity. Qed.
Print Assumptions C128_add.
(* one card is removed *)
Theorem C128_remove : forall h name,
  (texts name (cards h) = [] /\ remove_keyword h name = h) \/
  exists l1 t l2, texts name (cards h) = l1 ++ t :: l2 /\ texts name (cards (remove_keyword h name)) = l1 ++ l2.
Proof.
  intros h n. unfold remove_keyword. destruct (locate h n) as [i|] eqn:E; [right|left; split; [exact (locate_none h n E)|reflexivity]].
  destruct (locate_some h n i E) as (a & t & b & C & <-). exists (texts n a), t, (texts n b). cbn [cards]. rewrite C.
  rewrite firstn_app, firstn_all, Nat.sub_diag, app_nil_r, skipn_app, skipn_all2 by lia.
  replace (List.length a + 1 - List.length a) with 1 by lia. cbn [skipn app]. rewrite !texts_app, texts_same. split; reflexivity.
Qed.
Print Assumptions C128_remove.
(* other keywords are not touched *)
Theorem C128_others : forall h name other text, other <> name ->
  texts other (cards (write_keyword h name text)) = texts other (cards h) /\
  texts other (cards (add_keyword h name text)) = texts other (cards h) /\
  texts other (cards (remove_keyword h name)) = texts other (cards h).
Proof.
  intros h n o x N. assert (N' : n <> o) by congruence. split; [|split].
  - unfold write_keyword. destruct (locate h n) as [i|] eqn:E; cbn [cards].
    + destruct (locate_some h n i E) as (a & t & b & C & <-). rewrite C, upd_mid, !texts_app, !texts_other by exact N'. reflexivity.
    + rewrite texts_app, texts_other by exact N'. apply app_nil_r.
  - cbn [add_keyword cards]. rewrite texts_app, texts_other by exact N'. apply app_nil_r.
  - unfold remove_keyword. destruct (locate h n) as [i|] eqn:E; [|reflexivity].
    destruct (locate_some h n i E) as (a & t & b & C & <-). cbn [cards]. rewrite C.
    rewrite firstn_app, firstn_all, Nat.sub_diag, app_nil_r, skipn_app, skipn_all2 by lia.
    replace (List.length a + 1 - List.length a) with 1 by lia. cbn [skipn app]. rewrite !texts_app, texts_other by exact N'. reflexivity.
Qed.
Print Assumptions C128_others.
(* Finding: a keyword added to one that exists is there twice, and is still there when it was removed. *)
Theorem C128_twice_refuted : forall h name text, texts name (cards h) <> [] ->
  fst (has_keyword (remove_keyword (add_keyword h name text) name) name) = true.
Proof.
  intros h n x N. apply C128_has. destruct (C128_remove (add_keyword h n x) n) as [(E & _)|(l1 & t & l2 & E & ->)]; rewrite C128_add in E.
  - apply app_eq_nil in E. destruct E; discriminate.
  - intros Z. apply app_eq_nil in Z. destruct Z as [-> ->]. destruct (texts n (cards h)) as [|u [|w l]]; [congruence| |]; discriminate.
Qed.
Print Assumptions C128_twice_refuted.

(* --- strings ------------------------------------------------------------------- *)
Lemma doubled_plain s : ~ In quote s -> doubled s = s.
Proof.
  induction s as [|c s IH]; intros N; [reflexivity|]. cbn. destruct (Ascii.eqb_spec c quote) as [->|_]; [exfalso; apply N; left; reflexivity|].
  rewrite IH; [reflexivity|]. intros I. apply N. right. exact I.
Qed.
Lemma doubled_app a b : doubled (a ++ b) = doubled a ++ doubled b.
Proof. induction a as [|c a IH]; [reflexivity|]. cbn. destruct (Ascii.eqb c quote); rewrite IH; reflexivity. Qed.
Lemma edge_blanks n : edge (repeat " "%char n ++ [quote]).
Proof. intros c I. apply in_app_or in I. destruct I as [I|[<-|[]]]; [left; exact (repeat_spec _ _ _ I)|right; reflexivity]. Qed.
Lemma string_inside s m : inside (firstn 68 (doubled s)) m -> inside (string_text s) m.
Proof.
  intros (C & a & b & E & A & B). split; [exact C|]. exists (quote :: a), (b ++ repeat " "%char (8 - List.length (firstn 68 (doubled s))) ++ [quote]).
  split; [unfold string_text; cbv zeta; rewrite E at 1; cbn [app]; rewrite <- !app_assoc; reflexivity|]. split.
  - intros c [<-|I]; [right; reflexivity|exact (A c I)].
  - apply edge_app; [exact B|apply edge_blanks].
Qed.
Lemma clean_inside m : clean m -> inside m m.
Proof. intros C. split; [exact C|]. exists [], []. cbn. rewrite app_nil_r. repeat split; intros c []. Qed.
Lemma written h name text : texts name (cards h) = [] \/ (exists t, texts name (cards h) = [t]) -> texts name (cards (write_keyword h name text)) = [text].
Proof.
  intros H. destruct (C128_write h name text) as [[_ E]|(l1 & t & l2 & E & E')]; [exact E|].
  destruct H as [H|(u & H)]; rewrite H in E; destruct l1 as [|p [|q l1]]; try discriminate. injection E as _ <-. rewrite E'. reflexivity.
Qed.
(* a string of at most 68 characters, without quotes and without blanks at its ends, is read back *)
Theorem C128_roundtrip : forall h name s, texts name (cards h) = [] \/ (exists t, texts name (cards h) = [t]) ->
  List.length s <= 68 -> ~ In "'"%char s -> clean s ->
  exists h', read_string (write_keyword h name (string_text s)) name = Ok (true, s, h').
Proof.
  intros h n s H L Q C. destruct (C128_read_one _ n (string_text s) s (written h n _ H)) as (h' & R & _); [|exists h'; exact R].
  apply string_inside. rewrite (doubled_plain s Q), firstn_all2 by exact L. apply clean_inside. exact C.
Qed.
Print Assumptions C128_roundtrip.
(* Finding: quotes within a string are read back twice. *)
Theorem C128_quotes_refuted : forall h name a b, texts name (cards h) = [] \/ (exists t, texts name (cards h) = [t]) ->
  List.length a + List.length b <= 66 -> ~ In "'"%char a -> ~ In "'"%char b -> clean a -> clean b -> a <> [] -> b <> [] ->
  exists h', read_string (write_keyword h name (string_text (a ++ "'"%char :: b))) name = Ok (true, a ++ "'"%char :: "'"%char :: b, h').
Proof.
  intros h n a b H L Qa Qb Ca Cb Na Nb.
  destruct (C128_read_one _ n (string_text (a ++ quote :: b)) (a ++ quote :: quote :: b) (written h n _ H)) as (h' & R & _); [|exists h'; exact R].
  apply string_inside. rewrite doubled_app. change (doubled (quote :: b)) with (quote :: quote :: doubled b). rewrite (doubled_plain a Qa), (doubled_plain b Qb).
  rewrite firstn_all2 by (rewrite app_length; cbn [List.length]; lia). apply clean_inside. right.
  destruct Ca as [|((c & r & E & B) & _)]; [contradiction|]. destruct Cb as [|(_ & (r' & c' & E' & B'))]; [contradiction|]. split.
  - exists c, (r ++ quote :: quote :: b). split; [rewrite E; reflexivity|exact B].
  - exists (a ++ quote :: quote :: r'), c'. split; [rewrite E', <- app_assoc; reflexivity|exact B'].
Qed.
Print Assumptions C128_quotes_refuted.
(* Finding: blanks and quotes at the ends of a string are never read back. *)
Theorem C128_ends_refuted : forall h name s v h', read_string h name = Ok (true, v, h') -> ~ clean s -> v <> s.
Proof.
  intros h n s v h' R N ->. apply N. destruct (texts n (cards h)) as [|t l] eqn:E; [rewrite (C128_absent_refuted h n E) in R; discriminate|].
  destruct (C128_read h n) as (t' & v' & h'' & R' & _ & (C & _) & _); [rewrite E; discriminate|]. rewrite R in R'. injection R' as <- _. exact C.
Qed.
Print Assumptions C128_ends_refuted.
(* Finding: strings longer than 68 characters are cut, without a message. *)
Theorem C128_long_refuted : forall h name s, texts name (cards h) = [] \/ (exists t, texts name (cards h) = [t]) ->
  68 < List.length s -> ~ In "'"%char s -> clean (firstn 68 s) ->
  exists h', read_string (write_keyword h name (string_text s)) name = Ok (true, firstn 68 s, h') /\ firstn 68 s <> s.
Proof.
  intros h n s H L Q C. destruct (C128_read_one _ n (string_text s) (firstn 68 s) (written h n _ H)) as (h' & R & _).
  - apply string_inside. rewrite (doubled_plain s Q). apply clean_inside. exact C.
  - exists h'. split; [exact R|]. intros E. apply (f_equal (@List.length _)) in E. rewrite firstn_length in E. lia.
Qed.
Print Assumptions C128_long_refuted.
(* Finding: the string "T" is read as the number 1. *)
Theorem C128_true_string_refuted : forall T (from_string : list ascii -> T -> bool * T) h name old, texts name (cards h) = [] \/ (exists t, texts name (cards h) = [t]) ->
  exists h', read_keyword from_string (write_keyword h name (string_text ["T"%char])) name old = Ok (from_string ["1"%char] old, h').
Proof.
  intros T f h n old H. destruct (C128_value T f _ n (string_text ["T"%char]) ["T"%char] old (written h n _ H)) as (h' & R & _).
  - apply string_inside. cbn. apply clean_inside. right. split; [exists "T"%char, []|exists [], "T"%char]; split; try reflexivity; split; discriminate.
  - exists h'. rewrite R. reflexivity.
Qed.
Print Assumptions C128_true_string_refuted.

(* --- the type of an HDU ---------------------------------------------------------- *)
Definition image_kind (axes : nat) : kind := if Nat.eq_dec axes 0 then EmptyHdu else ImageHdu.
Lemma image_kind_eq axes : (if axes =? 0 then EmptyHdu else ImageHdu) = image_kind axes.
Proof. unfold image_kind. destruct (Nat.eqb_spec axes 0), (Nat.eq_dec axes 0); congruence. Qed.
(* the primary HDU is empty or an image *)
Theorem C128_primary : forall from_string axes h t v b, texts (list_ascii_of_string "SIMPLE") (cards h) = [t] -> inside t v ->
  v = ["T"%char] -> from_string ["1"%char] false = (true, b) -> hdu_type from_string axes h = Ok (image_kind axes).
Proof.
  intros f axes h t v b E I -> F. unfold hdu_type. destruct (C128_value bool f h _ t _ false E I) as (h' & R & _). rewrite R. cbn [list_eq_dec obind].
  destruct (list_eq_dec ascii_dec ["T"%char] ["T"%char]) as [_|N]; [|congruence]. rewrite F. cbn [obind]. rewrite image_kind_eq. reflexivity.
Qed.
Print Assumptions C128_primary.
(* an extension is what XTENSION says; an unknown extension stops the program *)
Theorem C128_extension : forall from_string axes h t v, texts (list_ascii_of_string "SIMPLE") (cards h) = [] ->
  texts (list_ascii_of_string "XTENSION") (cards h) = [t] -> inside t v ->
  (v = list_ascii_of_string "IMAGE" -> hdu_type from_string axes h = Ok (image_kind axes)) /\
  (v = list_ascii_of_string "BINTABLE" \/ v = list_ascii_of_string "TABLE" -> hdu_type from_string axes h = Ok TableHdu) /\
  (v <> list_ascii_of_string "IMAGE" -> v <> list_ascii_of_string "BINTABLE" -> v <> list_ascii_of_string "TABLE" -> hdu_type from_string axes h = CheckFail).
Proof.
  intros f axes h t v S E I. unfold hdu_type. rewrite (C128_absent bool f h _ false S). cbn [obind].
  destruct (C128_read_one h _ t v E I) as (h' & R & _). rewrite R. cbn [obind].
  assert (X : forall w, v <> w -> is_name v w = false) by (intros w N; destruct (is_name v w) eqn:Y; [apply is_name_iff in Y; contradiction|reflexivity]).
  split; [|split].
  - intros ->. rewrite (proj2 (is_name_iff _ _) eq_refl), image_kind_eq. reflexivity.
  - intros [->| ->]; reflexivity.
  - intros A B C. rewrite (X _ A), (X _ B), (X _ C). reflexivity.
Qed.
Print Assumptions C128_extension.
Theorem C128_no_hdu : forall from_string axes h, texts (list_ascii_of_string "SIMPLE") (cards h) = [] ->
  texts (list_ascii_of_string "XTENSION") (cards h) = [] -> hdu_type from_string axes h = Ok NullHdu.
Proof.
  intros f axes h S E. unfold hdu_type. rewrite (C128_absent bool f h _ false S). cbn [obind]. rewrite (C128_absent_refuted h _ E). reflexivity.
Qed.
Print Assumptions C128_no_hdu.

Example C128_example : exists h',
  read_string (write_keyword (Hdr [(["A"%char], ["1"%char]); (["B"%char], ["2"%char])] 1) ["A"%char] (string_text ["x"%char; " "%char; "y"%char])) ["A"%char]
  = Ok (true, ["x"%char; " "%char; "y"%char], h').
Proof. eexists. vm_compute. reflexivity. Qed.
Example C128_example_quote : string_text (list_ascii_of_string "d'A") = list_ascii_of_string "'d''A    '".
Proof. reflexivity. Qed.
Example C128_example_cursor : has_keyword (Hdr [(["A"%char], []); (["B"%char], []); (["A"%char], [])] 1) ["A"%char] = (true, Hdr [(["A"%char], []); (["B"%char], []); (["A"%char], [])] 3).
Proof. reflexivity. Qed.
