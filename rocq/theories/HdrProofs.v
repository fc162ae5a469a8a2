(* Proofs about parsed FITS headers. *)
From Coq Require Import Ascii String Lia.
From Verif Require Import Base StrModel StrSpec StrProofs StrProofs3 KeySpec KeyProofs HdrModel HdrSpec.
Local Open Scope list_scope.
Local Open Scope nat_scope.
Notation length := List.length.
Notation concat := List.concat.

Lemma trim_eq s t : stripped s t -> trim s blanks = Ok t.
Proof. intros S. destruct (trim_stripped s) as (m & -> & S'). f_equal. eapply stripped_fun; eauto. Qed.
Lemma stripped_bare t : bare t -> stripped t t.
Proof. intros B. exists [], []. rewrite app_nil_r. split; [reflexivity|]. split; [apply made_nil|]. split; [apply made_nil|exact B]. Qed.
Lemma trim_bare t : bare t -> trim t blanks = Ok t.
Proof. intros B. apply trim_eq, stripped_bare, B. Qed.
Lemma stripped_is_bare s t : stripped s t -> bare t.
Proof. intros (a & b & _ & _ & _ & B). exact B. Qed.
Lemma stripped_wrap a s b t : made_of white a -> made_of white b -> stripped s t -> stripped (a ++ s ++ b) t.
Proof.
  intros A B (x & y & -> & X & Y & T). exists (a ++ x), (y ++ b). split; [rewrite <- !app_assoc; reflexivity|].
  split; [apply made_app2; assumption|]. split; [apply made_app2; assumption|exact T].
Qed.
Lemma spaces n : made_of white (repeat " "%char n). Proof. apply spaces_white. Qed.

Lemma starts_iff p s : starts p s = true <-> starts_with p s.
Proof.
  unfold starts, sfind, starts_with. cbn [Nat.leb skipn]. destruct s as [|c s]; cbn [find_at].
  - destruct (prefixb p []) eqn:E; split; intros H; try discriminate; try (apply prefixb_iff in E; exact E); try reflexivity.
    apply prefixb_iff in H. congruence.
  - destruct (prefixb p (c :: s)) eqn:E; split; intros H; try (apply prefixb_iff in E; exact E); try reflexivity.
    + pose proof (find_at_spec p s 1) as F. destruct (find_at p s 1) as [[|k]|]; try discriminate. destruct F as (a & b & _ & K & _). lia.
    + apply prefixb_iff in H. congruence.
Qed.
Lemma starts_dec p s : {starts_with p s} + {~ starts_with p s}.
Proof. destruct (starts p s) eqn:E; [left; apply starts_iff, E|right; intros K; apply starts_iff in K; congruence]. Qed.
Lemma starts_false p s : starts p s = false <-> ~ starts_with p s.
Proof. rewrite <- starts_iff. destruct (starts p s); split; congruence. Qed.

(* the first of two characters *)
Lemma find2 s : match find_first (has (lit "=/")) s (Some 0) with
  | Some p => exists a c b, s = a ++ c :: b /\ p = length a /\ (c = "="%char \/ c = "/"%char) /\ free ["="; "/"]%char a
  | None => free ["="; "/"]%char s
  end.
Proof.
  unfold find_first. cbn [skipn]. pose proof (first_at_spec (has (lit "=/")) s 0) as H.
  assert (Fr : forall a, (forall x, In x a -> has (lit "=/") x = false) -> free ["="; "/"]%char a).
  { intros a Ha c Ic I. specialize (Ha c I). apply has_false in Ha. apply Ha. exact Ic. }
  destruct (first_at _ s 0).
  - destruct H as (a & c & b & -> & -> & P & N). exists a, c, b. split; [reflexivity|]. split; [reflexivity|]. split; [|apply Fr, N].
    apply has_In in P. cbn in P. intuition.
  - apply Fr, H.
Qed.
Lemma find2_at a c b : (c = "="%char \/ c = "/"%char) -> free ["="; "/"]%char a -> find_first (has (lit "=/")) (a ++ c :: b) (Some 0) = Some (length a).
Proof.
  intros C F. pose proof (find2 (a ++ c :: b)) as H. destruct (find_first _ _ _) as [p|].
  - destruct H as (a' & c' & b' & E & -> & C' & F'). f_equal. apply app_eq_app in E. destruct E as (l & [(-> & E)|(-> & E)]); destruct l as [|x l]; cbn [app] in E.
    + rewrite app_nil_r. reflexivity.
    + injection E as -> _. destruct (F x); [destruct C' as [->| ->]; cbn; auto|]. apply in_or_app. right. left. reflexivity.
    + rewrite app_nil_r. reflexivity.
    + injection E as -> _. destruct (F' x); [destruct C as [->| ->]; cbn; auto|]. apply in_or_app. right. left. reflexivity.
  - destruct (H c); [destruct C as [->| ->]; cbn; auto|]. apply in_or_app. right. left. reflexivity.
Qed.
Lemma oget_mid {A} (a : list A) c b : oget (a ++ c :: b) (length a) = Ok c.
Proof. unfold oget. rewrite nth_error_app2, Nat.sub_diag by lia. reflexivity. Qed.
Lemma substr_head (a b : list ascii) : substr (a ++ b) 0 (length a) = Ok a.
Proof. exact (substr_mid [] a b). Qed.
Lemma substr_end_0 (s : list ascii) : substr_end s 0 = Ok s.
Proof. reflexivity. Qed.
Lemma tail_mid (a : list ascii) c b : substr_end (a ++ c :: b) (length a + 1) = Ok b.
Proof.
  pose proof (substr_tail (a ++ [c]) b) as T. rewrite <- app_assoc in T. cbn [app] in T. rewrite app_length in T. exact T.
Qed.

Lemma find1_at c a b : ~ In c a -> find_first (has [c]) (a ++ c :: b) (Some 0) = Some (length a).
Proof.
  intros N. pose proof (find1 c (a ++ c :: b) 0 (Nat.le_0_l _)) as H. destruct (find_first _ _ _) as [p|].
  - destruct H as (a' & b' & E & -> & N'). cbn [skipn] in E. destruct (first_split _ _ _ _ _ N N' E) as (-> & _). reflexivity.
  - destruct H. cbn [skipn]. apply in_or_app. right. left. reflexivity.
Qed.
Lemma find1_none c s : ~ In c s -> find_first (has [c]) s (Some 0) = None.
Proof.
  intros N. pose proof (find1 c s 0 (Nat.le_0_l _)) as H. destruct (find_first _ _ _) as [p|]; [|reflexivity].
  destruct H as (a' & b' & E & _ & _). cbn [skipn] in E. subst s. destruct N. apply in_or_app. right. left. reflexivity.
Qed.
Lemma second_at s w : ~ In "'"%char s -> second_quote (["'"%char] ++ s ++ ["'"%char] ++ w) = Some (S (length s)).
Proof.
  intros N. unfold second_quote, quote. cbn [app]. pose proof (find1 "'"%char ("'"%char :: s ++ "'"%char :: w) 1) as H.
  destruct (find_first _ _ _) as [p|].
  - destruct H as (a' & b' & E & -> & N'); [cbn; lia|]. cbn [skipn] in E. destruct (first_split _ _ _ _ _ N N' E) as (-> & _). reflexivity.
  - destruct H; [cbn; lia|]. cbn [skipn]. apply in_or_app. right. left. reflexivity.
Qed.
Lemma second_none s : ~ In "'"%char s -> second_quote ("'"%char :: s) = None.
Proof.
  intros N. unfold second_quote, quote. pose proof (find1 "'"%char ("'"%char :: s) 1) as H.
  destruct (find_first _ _ _) as [p|]; [|reflexivity].
  destruct H as (a' & b' & E & _ & _); [cbn; lia|]. cbn [skipn] in E. subst s. destruct N. apply in_or_app. right. left. reflexivity.
Qed.

Lemma bare_quote s : bare (["'"%char] ++ s ++ ["'"%char]).
Proof.
  split.
  - intros c u E. cbn [app] in E. injection E as <- _. cbn. intuition discriminate.
  - intros u c E. rewrite app_assoc in E. apply app_inj_tail in E. destruct E as [_ <-]. cbn. intuition discriminate.
Qed.
Lemma bare_slash u x : bare (u ++ "/"%char :: x) -> bare ("/"%char :: x).
Proof.
  intros [_ B]. split.
  - intros c t E. injection E as <- _. cbn. intuition discriminate.
  - intros t c E. apply (B (u ++ t) c). rewrite E, app_assoc. reflexivity.
Qed.

(* a card is read as it should be *)
Lemma read_value line a b v com : line = a ++ "="%char :: b -> free ["="; "/"]%char a -> forall k, stripped a k -> splits b v com ->
  read_card line = Ok (Keyword k v com false).
Proof.
  intros -> F k Sk Sp. unfold read_card. rewrite (find2_at a "="%char b) by (auto). rewrite oget_mid. cbn [obind].
  rewrite substr_head. cbn [obind]. rewrite (trim_eq _ _ Sk). cbn [obind]. change (Ascii.eqb "="%char "/"%char) with false. cbn [obind].
  rewrite tail_mid. cbn [obind]. destruct Sp as [(s & w & S & N & -> & W)|[(s & S & N & -> & ->)|(u & w & S & Nq & N & Hw & U & ->)]].
  - rewrite (trim_eq _ _ S). cbn [obind app]. change (Ascii.eqb "'"%char quote) with true. cbn [obind].
    change ("'"%char :: s ++ "'"%char :: w) with (["'"%char] ++ s ++ ["'"%char] ++ w). rewrite (second_at s w N). cbn [option_map].
    pose proof (substr_head (["'"%char] ++ s ++ ["'"%char]) w) as E1. pose proof (substr_tail (["'"%char] ++ s ++ ["'"%char]) w) as E2.
    replace (length (["'"%char] ++ s ++ ["'"%char])) with (Datatypes.S (length s) + 1) in E1, E2 by (rewrite !app_length; cbn; lia).
    rewrite <- !app_assoc in E1, E2. rewrite E1. cbn [obind]. rewrite (trim_bare _ (bare_quote s)). cbn [obind]. rewrite E2. cbn [obind].
    rewrite (trim_eq _ _ W). reflexivity.
  - rewrite (trim_eq _ _ S). cbn [obind]. change (Ascii.eqb "'"%char quote) with true. cbn iota. rewrite (second_none s N). cbn [option_map].
    rewrite (trim_bare _ (stripped_is_bare _ _ S)). reflexivity.
  - rewrite (trim_eq _ _ S). cbn [obind]. pose proof (stripped_is_bare _ _ S) as B.
    destruct (u ++ w) as [|c t] eqn:Ec.
    + apply app_eq_nil in Ec. destruct Ec as [-> ->]. destruct U as (x & y & E & _). destruct x; [|discriminate]. destruct v; [|discriminate]. reflexivity.
    + destruct (Ascii.eqb_spec c quote) as [->|Nc]; [destruct Nq; exists t; reflexivity|]. rewrite <- Ec in *. clear Ec.
      destruct Hw as [->|(x & ->)].
      * rewrite app_nil_r in *. rewrite (find1_none _ _ N). rewrite (trim_bare _ B). cbn [obind]. f_equal. f_equal. eapply stripped_fun; [apply stripped_bare, B|exact U].
      * cbn [app] in *. rewrite (find1_at "/"%char u x N). rewrite substr_head. cbn [obind]. rewrite (trim_eq _ _ U). cbn [obind].
        rewrite substr_tail. cbn [obind]. rewrite (trim_bare _ (bare_slash u x B)). reflexivity.
Qed.
Lemma read_ok keys line k : reads line k -> read_line keys line = Ok (keys ++ [k]).
Proof.
  destruct k as [ky v c nv]. intros R. unfold read_line. unfold reads in R. cbn [key value comment novalue] in R.
  destruct R as [(H & S & -> & -> & ->)|(H & Cn & R)].
  - rewrite (proj2 (starts_iff (lit "HISTORY ") line) H). rewrite (trim_eq _ _ S). reflexivity.
  - rewrite (proj2 (starts_false (lit "HISTORY ") line) H), (proj2 (starts_false (lit "CONTINUE ") line) Cn).
    destruct R as [(F & S & -> & -> & ->)|[(a & b & -> & F & S & -> & Sc & ->)|(a & b & E & F & S & Sp & ->)]].
    + unfold read_card. pose proof (find2 line) as H2. destruct (find_first _ line (Some 0)).
      * destruct H2 as (a & d & b & -> & _ & D & _). exfalso. apply (F d); [destruct D as [->| ->]; cbn; auto|]. apply in_or_app. right. left. reflexivity.
      * rewrite (trim_eq _ _ S). reflexivity.
    + unfold read_card. rewrite (find2_at a "/"%char b) by auto. rewrite oget_mid. cbn [obind]. rewrite substr_head. cbn [obind].
      rewrite (trim_eq _ _ S). cbn [obind]. change (Ascii.eqb "/"%char "/"%char) with true. cbn iota. rewrite substr_tail. cbn [obind].
      rewrite (trim_eq _ _ Sc). reflexivity.
    + rewrite (read_value line a b v c E F ky S Sp). reflexivity.
Qed.
Lemma strip s : exists t, stripped s t.
Proof. destruct (trim_stripped s) as (m & _ & S). eauto. Qed.
Lemma first_of c (s : list ascii) : ~ In c s \/ exists a b, s = a ++ c :: b /\ ~ In c a.
Proof.
  pose proof (find1 c s 0 (Nat.le_0_l _)) as H. destruct (find_first _ _ _); [right|left; exact H].
  destruct H as (a & b & E & _ & N). exists a, b. auto.
Qed.
Lemma splits_total r : exists v com, splits r v com.
Proof.
  destruct (strip r) as (t & S). destruct (starts_dec ["'"%char] t) as [(x & ->)|Nq].
  - destruct (first_of "'"%char x) as [N|(s & w & -> & N)].
    + exists ("'"%char :: x), []. right. left. exists x. auto.
    + destruct (strip w) as (com & W). exists (["'"%char] ++ s ++ ["'"%char]), com. left. exists s, w. auto.
  - destruct (first_of "/"%char t) as [N|(u & w & -> & N)].
    + exists t, []. right. right. exists t, []. rewrite app_nil_r. split; [exact S|]. split; [exact Nq|]. split; [exact N|]. split; [auto|].
      split; [apply stripped_bare; eapply stripped_is_bare; eauto|reflexivity].
    + destruct (strip u) as (v & U). exists v, ("/"%char :: w). right. right. exists u, ("/"%char :: w). split; [exact S|]. split; [exact Nq|]. split; [exact N|].
      split; [right; exists w; reflexivity|]. auto.
Qed.
Lemma reads_total line : ~ starts_with continuation line -> exists k, reads line k.
Proof.
  intros C. destruct (starts_dec history line) as [H|H].
  - destruct (strip line) as (t & S). exists (Keyword t [] [] true). left. auto.
  - pose proof (find2 line) as F. destruct (find_first _ line (Some 0)).
    + destruct F as (a & c & b & -> & _ & [->| ->] & Fr); destruct (strip a) as (t & S).
      * destruct (splits_total b) as (v & com & Sp). exists (Keyword t v com false). right. split; [exact H|]. split; [exact C|].
        right. right. exists a, b. auto.
      * destruct (strip ("/"%char :: b)) as (com & Sc). exists (Keyword t [] com true). right. split; [exact H|]. split; [exact C|].
        right. left. exists a, b. cbn [key value comment novalue]. auto 10.
    + destruct (strip line) as (t & S). exists (Keyword t [] [] true). right. split; [exact H|]. split; [exact C|]. left. auto.
Qed.

(* the lines of a header *)
Lemma concat_cards_inj l l' : cards l -> cards l' -> concat l = concat l' -> l = l'.
Proof.
  revert l'. induction l as [|c l IH]; intros [|c' l'] C C' E; cbn [List.concat] in E.
  - reflexivity.
  - assert (K : length c' = 80) by (apply C'; left; reflexivity). apply (f_equal (@length ascii)) in E. rewrite app_length, K in E. cbn in E. lia.
  - assert (K : length c = 80) by (apply C; left; reflexivity). apply (f_equal (@length ascii)) in E. rewrite app_length, K in E. cbn in E. lia.
  - assert (K : length c = 80) by (apply C; left; reflexivity). assert (K' : length c' = 80) by (apply C'; left; reflexivity).
    assert (c = c' /\ concat l = concat l') as [-> E'].
    { pose proof (f_equal (firstn 80) E) as E1. pose proof (f_equal (skipn 80) E) as E2.
      rewrite <- K in E1 at 1. rewrite firstn_len_app in E1. rewrite <- K' in E1 at 1. rewrite firstn_len_app in E1.
      rewrite <- K in E2 at 1. rewrite skipn_len_app in E2. rewrite <- K' in E2 at 1. rewrite skipn_len_app in E2. auto. }
    f_equal. apply IH; [intros d I; apply C; right; exact I|intros d I; apply C'; right; exact I|exact E'].
Qed.
Lemma cut_cards l : cards l -> cut (concat l) 80 = Ok l.
Proof.
  intros C. destruct (cut_ok (concat l) 80) as (w & -> & Lw & Cw & E); [lia|]. f_equal. apply concat_cards_inj; [exact Cw|exact C|].
  rewrite E. rewrite (concat_len l C). replace (80 * length l / 80) with (length l) by (rewrite Nat.mul_comm, Nat.div_mul; lia).
  rewrite <- (concat_len l C). apply firstn_all.
Qed.
Lemma parse_ok : forall l ks, cards l -> Forall2 reads l ks -> parse_header (concat l) = Ok ks.
Proof.
  intros l ks C R. unfold parse_header. rewrite (cut_cards l C). cbn [obind]. clear C.
  assert (G : forall acc, ofold read_line l acc = Ok (acc ++ ks)).
  { induction R as [|line k l ks Rk R IH]; intros acc; cbn [ofold].
    - rewrite app_nil_r. reflexivity.
    - rewrite (read_ok acc line k Rk). cbn [obind]. rewrite IH, <- app_assoc. reflexivity. }
  exact (G []).
Qed.

(* what is written *)
Lemma padded_left n s : align_left s n " "%char = padded n s.
Proof. unfold align_left, padded. destruct (Nat.ltb_spec (length s) n); [reflexivity|]. replace (n - length s) with 0 by lia. rewrite app_nil_r. reflexivity. Qed.
Lemma padded_right n s : align_right s n " "%char = lpadded n s.
Proof. unfold align_right, lpadded. destruct (Nat.ltb_spec (length s) n); [reflexivity|]. replace (n - length s) with 0 by lia. reflexivity. Qed.
Lemma note_eq c : match c with [] => [] | a :: l => lit " " ++ (a :: l) end = note c.
Proof. destruct c; reflexivity. Qed.
Lemma write_ok k t : laid k t -> write_card k = Ok (if 80 <? length t then firstn 80 t else padded 80 t).
Proof.
  intros L.
  assert (T : forall e, (if 80 <? length e then substr e 0 80
     else Ok (if length e <? 80 then e ++ repeat " "%char (80 - length e) else e)) = Ok (if 80 <? length e then firstn 80 e else padded 80 e)).
  { intros e. destruct (Nat.ltb_spec 80 (length e)); [reflexivity|]. unfold padded. destruct (Nat.ltb_spec (length e) 80); [reflexivity|].
    replace (80 - length e) with 0 by lia. rewrite app_nil_r. reflexivity. }
  unfold write_card. inversion L as [k' Nv|k' Nv H|k' Nv H Q|k' Nv H Q]; subst; rewrite Nv; cbn [negb].
  - cbn [obind]. cbv zeta. rewrite padded_left, note_eq. apply T.
  - destruct (begins_with_ok (key k) (lit "HIERARCH ")) as (r & -> & R). cbn [obind]. cbv zeta. rewrite (proj2 R H). rewrite note_eq.
    change (lit " = ") with [" "; "="; " "]%char. rewrite T, <- !app_assoc. reflexivity.
  - destruct (begins_with_ok (key k) (lit "HIERARCH ")) as (r & -> & R). cbn [obind]. cbv zeta. destruct r; [destruct H; apply R; reflexivity|].
    destruct Q as (x & Q). rewrite Q. cbn [app]. change (Ascii.eqb "'"%char quote) with true. cbn iota. rewrite !padded_left, note_eq.
    change (lit "= ") with ["="; " "]%char. rewrite T, <- !app_assoc. reflexivity.
  - destruct (begins_with_ok (key k) (lit "HIERARCH ")) as (r & -> & R). cbn [obind]. cbv zeta. destruct r; [destruct H; apply R; reflexivity|].
    replace (match value k with c :: _ => if Ascii.eqb c quote then align_left (value k) 20 " "%char else align_right (value k) 20 " "%char | [] => align_right (value k) 20 " "%char end)
      with (align_right (value k) 20 " "%char).
    2:{ destruct (value k) as [|c v]; [reflexivity|]. destruct (Ascii.eqb_spec c quote) as [->|]; [|reflexivity]. destruct Q. exists v. reflexivity. }
    rewrite padded_left, padded_right, note_eq. change (lit "= ") with ["="; " "]%char. rewrite T, <- !app_assoc. reflexivity.
Qed.
Lemma laid_total k : exists t, laid k t.
Proof.
  destruct (novalue k) eqn:Nv; [eexists; apply laid_bare, Nv|].
  destruct (starts_dec hierarch (key k)); [eexists; apply laid_long; assumption|].
  destruct (starts_dec ["'"%char] (value k)); eexists; [apply laid_quoted|apply laid_plain]; assumption.
Qed.
Lemma laid_fun k t t' : laid k t -> laid k t' -> t = t'.
Proof. intros L L'. inversion L; subst; inversion L'; subst; try reflexivity; try congruence; contradiction. Qed.
Definition card_of (k : keyword) (c : list ascii) : Prop := exists t, laid k t /\ c = if 80 <? length t then firstn 80 t else padded 80 t.
Lemma card_len k c : card_of k c -> length c = 80.
Proof.
  intros (t & _ & ->). destruct (Nat.ltb_spec 80 (length t)); [rewrite firstn_length; lia|]. unfold padded. rewrite app_length, repeat_length. lia.
Qed.
Lemma serialize_ok ks : exists l, serialize_header ks = Ok (concat l) /\ Forall2 card_of ks l.
Proof.
  unfold serialize_header.
  assert (G : forall ks acc, exists l, ofold (fun hdr k => e <- write_card k ;; Ok (hdr ++ e)) ks acc = Ok (acc ++ concat l) /\ Forall2 card_of ks l).
  { clear ks. induction ks as [|k ks IH]; intros acc; cbn [ofold].
    - exists []. rewrite app_nil_r. split; [reflexivity|constructor].
    - destruct (laid_total k) as (t & L). rewrite (write_ok k t L). cbn [obind]. destruct (IH (acc ++ (if 80 <? length t then firstn 80 t else padded 80 t))) as (l & E & F).
      rewrite E. eexists (_ :: l). cbn [List.concat]. rewrite app_assoc. split; [reflexivity|]. constructor; [exists t; auto|exact F]. }
  exact (G ks []).
Qed.

(* a normal keyword is read back *)
Lemma starts_app p (a b : list ascii) : starts_with p (a ++ b) -> starts_with p a \/ exists q, q <> [] /\ p = a ++ q /\ starts_with q b.
Proof.
  intros (r & E). apply app_eq_app in E. destruct E as (l & [(-> & E)|(-> & E)]).
  - left. exists l. reflexivity.
  - destruct l as [|x l]; [left; exists []; rewrite !app_nil_r; reflexivity|]. right. exists (x :: l). split; [discriminate|]. split; [reflexivity|].
    exists r. exact E.
Qed.
Lemma starts_more p (a b : list ascii) : starts_with p a -> starts_with p (a ++ b).
Proof. intros (r & ->). exists (r ++ b). rewrite app_assoc. reflexivity. Qed.
Lemma starts_long p (a b : list ascii) : length p <= length a -> starts_with p (a ++ b) -> starts_with p a.
Proof.
  intros L S. destruct (starts_app _ _ _ S) as [H|(q & Q & -> & _)]; [exact H|]. rewrite app_length in L. destruct q; [destruct Q; reflexivity|cbn in L; lia].
Qed.
(* a word and a blank at the beginning of a padded text *)
Lemma word_blank h (a b : list ascii) : ~ In " "%char h -> starts_with (h ++ [" "%char]) (a ++ " "%char :: b) -> starts_with (h ++ [" "%char]) (a ++ [" "%char]).
Proof.
  intros N S. destruct (starts_app _ _ _ S) as [H|(q & Q & E & r & Eq)]; [apply starts_more, H|].
  destruct q as [|x q]; [destruct Q; reflexivity|]. cbn [app] in Eq. injection Eq as <- _.
  apply app_eq_app in E. destruct E as (l & [(-> & E)|(-> & E)]).
  - destruct l as [|y l]; cbn [app] in E; [injection E as ->|injection E as <- _; destruct N; apply in_or_app; right; left; reflexivity].
    exists []. rewrite !app_nil_r. reflexivity.
  - destruct l as [|y l]; cbn [app] in E; [|injection E as _ E; destruct l; discriminate]. exists []. rewrite !app_nil_r. reflexivity.
Qed.
Lemma free_app cs a b : free cs a -> free cs b -> free cs (a ++ b).
Proof. intros A B c I J. apply in_app_or in J. destruct J; [eapply A|eapply B]; eauto. Qed.
Lemma free_spaces n : free ["="; "/"]%char (repeat " "%char n).
Proof. intros c I J. apply repeat_spec in J. subst c. cbn in I. intuition discriminate. Qed.
Lemma stripped_tail t b : bare t -> made_of white b -> stripped (t ++ b) t.
Proof. intros B W. exists [], b. split; [reflexivity|]. split; [apply made_nil|]. auto. Qed.
Lemma stripped_head a t : bare t -> made_of white a -> stripped (a ++ t) t.
Proof. intros B W. exists a, []. rewrite app_nil_r. split; [reflexivity|]. split; [exact W|]. split; [apply made_nil|exact B]. Qed.
Lemma blank_white : made_of white [" "%char]. Proof. intros c [<-|[]]. cbn. auto. Qed.
Lemma note_stripped c n : bare c -> stripped (note c ++ repeat " "%char n) c.
Proof.
  intros B. destruct c as [|x c]; cbn [note].
  - exists [], (repeat " "%char n). split; [reflexivity|]. split; [apply made_nil|]. split; [apply spaces|exact B].
  - exists [" "%char], (repeat " "%char n). split; [reflexivity|]. split; [apply blank_white|]. split; [apply spaces|exact B].
Qed.
Lemma bare_app (u x : list ascii) : bare u -> bare x -> u <> [] -> x <> [] -> forall m, bare (u ++ m ++ x).
Proof.
  intros [U1 U2] [X1 X2] Nu Nx m. split.
  - destruct u as [|c u]; [destruct Nu; reflexivity|]. intros d t E. cbn [app] in E. injection E as <- _. eapply U1; eauto.
  - intros t d E. destruct (exists_last Nx) as (x' & e & ->). rewrite !app_assoc in E. apply app_inj_tail in E. destruct E as [_ <-]. eapply X2; eauto.
Qed.
Lemma bare_nil : bare []. Proof. split; [discriminate|]. intros [|? ?] ? E; discriminate. Qed.
(* the value and the comment in what was written *)
Lemma splits_quoted v c a m n : quoted v -> bare c -> made_of white a -> splits (a ++ v ++ repeat " "%char m ++ note c ++ repeat " "%char n) v c.
Proof.
  intros (s & -> & N) B A. left.
  assert (W : exists w, stripped (a ++ (["'"%char] ++ s ++ ["'"%char]) ++ repeat " "%char m ++ note c ++ repeat " "%char n) (["'"%char] ++ s ++ ["'"%char] ++ w) /\ stripped w c).
  { destruct c as [|x c].
    - exists []. split; [|apply stripped_bare, B]. cbn [note]; apply (stripped_wrap a (["'"%char] ++ s ++ ["'"%char]) (repeat " "%char m ++ [] ++ repeat " "%char n)); [exact A|apply made_app2; apply spaces|apply stripped_bare; exact (bare_quote s)].
    - exists (repeat " "%char m ++ note (x :: c)). split.
      + cbn [note].
        replace (a ++ (["'"%char] ++ s ++ ["'"%char]) ++ repeat " "%char m ++ (" "%char :: x :: c) ++ repeat " "%char n)
          with (a ++ (["'"%char] ++ s ++ ["'"%char] ++ repeat " "%char m ++ " "%char :: x :: c) ++ repeat " "%char n) by (rewrite <- !app_assoc; reflexivity).
        apply stripped_wrap; [exact A|apply spaces|]. apply stripped_bare.
        replace (["'"%char] ++ s ++ ["'"%char] ++ repeat " "%char m ++ " "%char :: x :: c) with
          ((["'"%char] ++ s ++ ["'"%char]) ++ (repeat " "%char m ++ [" "%char]) ++ (x :: c)) by (rewrite <- !app_assoc; reflexivity).
        apply bare_app; [apply bare_quote|exact B|discriminate|discriminate].
      + replace (repeat " "%char m ++ note (x :: c)) with ((repeat " "%char m ++ [" "%char]) ++ (x :: c)) by (rewrite <- app_assoc; reflexivity).
        apply stripped_head; [exact B|]. apply made_app2; [apply spaces|apply blank_white]. }
  destruct W as (w & W1 & W2). exists s, w. auto.
Qed.
Lemma splits_plain v c a n : bare v -> ~ In "/"%char v -> ~ starts_with ["'"%char] v -> bare c -> c = [] \/ starts_with ["/"%char] c ->
  made_of white a -> splits (a ++ v ++ note c ++ repeat " "%char n) v c.
Proof.
  intros V Ns Nq B Hc A. right. right. destruct c as [|x c].
  - exists v, []. rewrite app_nil_r. split; [apply stripped_wrap; [exact A|apply spaces|apply stripped_bare, V]|]. split; [exact Nq|].
    split; [exact Ns|]. split; [auto|]. split; [apply stripped_bare, V|reflexivity].
  - destruct Hc as [?|Hc]; [discriminate|]. destruct v as [|y v].
    + exists [], (x :: c). cbn [app note]. split.
      * change (a ++ " "%char :: x :: c ++ repeat " "%char n) with (a ++ [" "%char] ++ (x :: c) ++ repeat " "%char n). rewrite app_assoc.
        apply stripped_wrap; [apply made_app2; [exact A|apply blank_white]|apply spaces|apply stripped_bare, B].
      * split; [intros (r & E); destruct Hc as (r' & E'); rewrite E' in E; discriminate|]. split; [intros []|]. split; [auto|]. split; [apply stripped_bare, bare_nil|reflexivity].
    + exists ((y :: v) ++ [" "%char]), (x :: c). split; [|split; [|split; [|split; [auto|split; [apply stripped_tail; [exact V|apply blank_white]|reflexivity]]]]].
      * cbn [note]. replace ((y :: v) ++ (" "%char :: x :: c) ++ repeat " "%char n) with (((y :: v) ++ [" "%char] ++ x :: c) ++ repeat " "%char n) by (rewrite <- !app_assoc; reflexivity).
        rewrite <- (app_assoc (y :: v) [" "%char] (x :: c)). apply stripped_wrap; [exact A|apply spaces|]. apply stripped_bare, bare_app; [exact V|exact B|discriminate|discriminate].
      * intros (r & E). apply Nq. cbn [app] in E. injection E as -> _. exists v. reflexivity.
      * intros I. apply in_app_or in I. destruct I as [I|[I|[]]]; [auto|discriminate].
Qed.

(* no card that is written for a normal keyword is taken for history or a continuation *)
Lemma hist_word : history = ["H"; "I"; "S"; "T"; "O"; "R"; "Y"]%char ++ [" "%char]. Proof. reflexivity. Qed.
Lemma cont_word : continuation = ["C"; "O"; "N"; "T"; "I"; "N"; "U"; "E"]%char ++ [" "%char]. Proof. reflexivity. Qed.
Ltac no_blank := intros K; cbn in K; repeat destruct K as [K|K]; try discriminate K; exact K.
Lemma hist_pad n (a x : list ascii) : 8 <= n -> starts_with history (padded n a ++ x) -> starts_with history (a ++ [" "%char]).
Proof.
  intros L S. unfold padded in S. rewrite <- app_assoc in S. destruct (Nat.le_gt_cases 8 (length a)) as [G|G].
  - apply starts_more. eapply starts_long; [exact G|exact S].
  - replace (n - length a) with (Datatypes.S (n - length a - 1)) in S by lia. cbn [repeat app] in S.
    rewrite hist_word in *. eapply word_blank; [no_blank|exact S].
Qed.
Lemma cont_pad n (a x : list ascii) : 9 <= n -> starts_with continuation (padded n a ++ x) -> starts_with continuation (a ++ [" "%char]).
Proof.
  intros L S. unfold padded in S. rewrite <- app_assoc in S. destruct (Nat.le_gt_cases 9 (length a)) as [G|G].
  - apply starts_more. eapply starts_long; [exact G|exact S].
  - replace (n - length a) with (Datatypes.S (n - length a - 1)) in S by lia. cbn [repeat app] in S.
    rewrite cont_word in *. eapply word_blank; [no_blank|exact S].
Qed.
Lemma cont_eq (a x : list ascii) : starts_with continuation (padded 8 a ++ "="%char :: x) -> starts_with continuation a.
Proof.
  intros S. destruct (Nat.le_gt_cases 9 (length a)) as [G|G].
  - unfold padded in S. rewrite <- app_assoc in S. eapply starts_long; [exact G|exact S].
  - exfalso. destruct (starts_app _ _ _ S) as [(r & E)|(q & Q & E & r & Eq)].
    + apply (f_equal (@length ascii)) in E. unfold padded in E. rewrite !app_length, repeat_length in E. cbn [continuation List.length] in E. lia.
    + destruct q as [|y q]; [destruct Q; reflexivity|]. cbn [app] in Eq. injection Eq as <- _.
      assert (I : In "="%char continuation) by (rewrite E; apply in_or_app; right; left; reflexivity). revert I. no_blank.
Qed.
Lemma white_pad n s : bare s -> stripped (padded n s) s.
Proof. intros B. apply stripped_tail; [exact B|apply spaces]. Qed.
Lemma normal_reads k t : normal k -> laid k t -> length t <= 80 -> reads (padded 80 t) k.
Proof.
  intros (Bk & Bc & _ & N) L Le. inversion L as [k' Nv|k' Nv H|k' Nv H Q|k' Nv H Q]; subst k'; rewrite Nv in N.
  - destruct N as (V & [(Hh & Hc)|(Hh & Cn & F & Hc)]).
    + left. rewrite Hc in *. cbn [note] in *. rewrite app_nil_r in *. subst t.
      assert (P : padded 80 (padded 30 (key k)) = padded 80 (key k)).
      { unfold padded. rewrite <- app_assoc, <- repeat_app. f_equal. f_equal. rewrite app_length, repeat_length.
        unfold padded in Le. rewrite app_length, repeat_length in Le. lia. }
      rewrite P. split; [|split; [apply white_pad, Bk|auto]]. destruct Hh as (r & E).
      unfold padded. destruct (80 - length (key k)) as [|m] eqn:Em.
      * cbn [repeat]. rewrite app_nil_r. apply (starts_long history (key k) [" "%char]); [cbn; lia|exists r; exact E].
      * cbn [repeat]. change (" "%char :: repeat " "%char m) with ([" "%char] ++ repeat " "%char m). rewrite app_assoc, E, <- app_assoc. eexists. reflexivity.
    + right. subst t. remember (80 - length (padded 30 (key k) ++ note (comment k))) as n.
      replace (padded 80 (padded 30 (key k) ++ note (comment k))) with (padded 30 (key k) ++ note (comment k) ++ repeat " "%char n)
        by (unfold padded at 2; rewrite <- Heqn, <- app_assoc; reflexivity).
      clear Heqn Le L. split; [intros S; apply Hh; eapply (hist_pad 30); [lia|exact S]|]. split; [intros S; apply Cn; eapply (cont_pad 30); [lia|exact S]|].
      destruct (comment k) as [|x c] eqn:Ec; cbn [note app].
      * left. split; [apply free_app; [apply free_app; [exact F|apply free_spaces]|apply free_spaces]|].
        split; [unfold padded; rewrite <- app_assoc; apply stripped_tail; [exact Bk|apply made_app2; apply spaces]|auto].
      * right. left. destruct Hc as [?|(r & Hc)]; [discriminate|]. cbn [app] in Hc. injection Hc as -> ->.
        exists (padded 30 (key k) ++ [" "%char]), (r ++ repeat " "%char n).
        split; [rewrite <- !app_assoc; reflexivity|].
        split; [apply free_app; [apply free_app; [exact F|apply free_spaces]|exact (free_spaces 1)]|].
        split; [unfold padded; rewrite <- app_assoc; apply stripped_tail; [exact Bk|apply made_app2; [apply spaces|exact blank_white]]|].
        split; [exact V|]. split; [|exact Nv].
        exact (stripped_tail ("/"%char :: r) _ Bc (spaces _)).
  - destruct N as (Hh & Cn & F & V). right. subst t.
    remember (80 - length (key k ++ [" "; "="; " "]%char ++ value k ++ note (comment k))) as n.
    replace (padded 80 (key k ++ [" "; "="; " "]%char ++ value k ++ note (comment k)))
      with ((key k ++ [" "%char]) ++ "="%char :: ([" "%char] ++ value k ++ repeat " "%char 0 ++ note (comment k) ++ repeat " "%char n))
      by (unfold padded; rewrite <- Heqn, <- !app_assoc; reflexivity).
    destruct H as (y & Ky).
    split; [intros S; apply Hh; rewrite Ky in S |- *; destruct S as (r & S); discriminate S|].
    split; [intros S; rewrite Ky in S; destruct S as (r & S); discriminate S|]. right. right.
    eexists _, _. split; [reflexivity|]. split; [apply free_app; [exact F|exact (free_spaces 1)]|]. split; [apply stripped_tail; [exact Bk|exact blank_white]|].
    split; [|exact Nv]. destruct V as [V|(V1 & V2 & V3 & V4)].
    + apply splits_quoted; [exact V|exact Bc|exact blank_white].
    + exact (splits_plain (value k) (comment k) [" "%char] n V1 V2 V3 Bc V4 blank_white).
  - destruct N as (Hh & Cn & F & V). right. subst t.
    remember (80 - length (padded 8 (key k) ++ ["="; " "]%char ++ padded 20 (value k) ++ note (comment k))) as n.
    replace (padded 80 (padded 8 (key k) ++ ["="; " "]%char ++ padded 20 (value k) ++ note (comment k)))
      with (padded 8 (key k) ++ "="%char :: ([" "%char] ++ value k ++ repeat " "%char (20 - length (value k)) ++ note (comment k) ++ repeat " "%char n))
      by (unfold padded at 2; rewrite <- Heqn; unfold padded; rewrite <- !app_assoc; reflexivity).
    split; [intros S; apply Hh; eapply (hist_pad 8); [lia|exact S]|]. split; [intros S; apply Cn; eapply cont_eq; exact S|]. right. right.
    eexists _, _. split; [reflexivity|]. split; [apply free_app; [exact F|apply free_spaces]|]. split; [apply white_pad, Bk|]. split; [|exact Nv].
    destruct V as [V|(_ & _ & V3 & _)]; [|contradiction]. apply splits_quoted; [exact V|exact Bc|exact blank_white].
  - destruct N as (Hh & Cn & F & V). right. subst t.
    remember (80 - length (padded 8 (key k) ++ ["="; " "]%char ++ lpadded 20 (value k) ++ note (comment k))) as n.
    replace (padded 80 (padded 8 (key k) ++ ["="; " "]%char ++ lpadded 20 (value k) ++ note (comment k)))
      with (padded 8 (key k) ++ "="%char :: (([" "%char] ++ repeat " "%char (20 - length (value k))) ++ value k ++ note (comment k) ++ repeat " "%char n))
      by (unfold padded at 2; rewrite <- Heqn; unfold padded, lpadded; rewrite <- !app_assoc; reflexivity).
    split; [intros S; apply Hh; eapply (hist_pad 8); [lia|exact S]|]. split; [intros S; apply Cn; eapply cont_eq; exact S|]. right. right.
    eexists _, _. split; [reflexivity|]. split; [apply free_app; [exact F|apply free_spaces]|]. split; [apply white_pad, Bk|]. split; [|exact Nv].
    destruct V as [(s & V & _)|(V1 & V2 & _ & V4)]; [destruct Q; rewrite V; eexists; reflexivity|].
    apply splits_plain; auto. apply made_app2; [exact blank_white|apply spaces].
Qed.
