(* C99: the keywords of a FITS header. *)
From Coq Require Import Ascii String Lia.
From Verif Require Import Base StrModel StrSpec StrProofs KeyModel KeySpec KeyProofs.
Local Open Scope list_scope.
Local Open Scope nat_scope.
Notation length := List.length.
Notation concat := List.concat.

(* getkey finds the first card with the name, and reads the text between the equal sign and the
   first slash after it; the key is absent if no card has the name. *)
Theorem C99_getkey : forall l key, cards l -> exists o, get_text (concat l) key = Ok o /\ lookup l key o /\
  (forall o', lookup l key o' -> o' = o) /\
  forall (T : Type) (parse : list ascii -> option T),
    getkey parse (concat l) key = Ok (match o with Some t => parse t | None => None end).
Proof.
  intros l key C. destruct (get_text_ok l key C) as (o & E & L). exists o. split; [exact E|]. split; [exact L|]. split.
  - intros o' L'. eapply lookup_fun; eauto.
  - intros T parse. unfold getkey. rewrite E. reflexivity.
Qed.
Print Assumptions C99_getkey.

(* getkey into a string removes the quotes around a text that begins with a quote. *)
Theorem C99_getkey_string : forall l key, cards l -> exists o, getkey_string (concat l) key = Ok o /\
  match o with
  | None => lookup l key None
  | Some s => exists t, lookup l key (Some t) /\
      ((exists n m, t = repeat "'"%char (S n) ++ s ++ repeat "'"%char m /\
          (forall u, s <> "'"%char :: u) /\ (forall u, s <> u ++ ["'"%char])) \/
       (t = s /\ forall u, t <> "'"%char :: u))
  end.
Proof.
  intros l key C. destruct (get_text_ok l key C) as (o & E & L). unfold getkey_string. rewrite E. cbn [obind].
  destruct o as [t|]; [|exists None; auto].
  pose proof (find1 "'"%char t 0 (Nat.le_0_l _)) as F. destruct (find_first _ t (Some 0)) as [[|n]|].
  - destruct F as (a & b & Et & Ea & _). destruct a; [|discriminate]. cbn [skipn app] in Et. subst t.
    destruct (trim_ok ("'"%char :: b) ["'"%char]) as (m & -> & (x & y & S & X & Y) & K). cbn [omap]. exists (Some m). split; [reflexivity|].
    exists ("'"%char :: b). split; [exact L|]. left.
    assert (Q : forall z, made_of ["'"%char] z -> z = repeat "'"%char (length z)).
    { induction z as [|c z IH]; intros M; [reflexivity|]. cbn [List.length repeat]. destruct (M c) as [<-|[]]; [left; reflexivity|].
      f_equal. apply IH. intros d I. apply M. right. exact I. }
    assert (H1 : forall u, m <> "'"%char :: u).
    { intros u ->. destruct K as [K|[(c & t & K & N) _]]; [discriminate|]. injection K as <- _. apply N. left. reflexivity. }
    assert (H2 : forall u, m <> u ++ ["'"%char]).
    { intros u ->. destruct K as [K|[_ (t & c & K & N)]]; [destruct u; discriminate|]. apply app_inj_tail in K. destruct K as [_ <-]. apply N. left. reflexivity. }
    destruct x as [|c x].
    + cbn [app] in S. destruct m as [|c m]; cbn [app] in S.
      * exists (length b), 0. cbn [repeat app]. rewrite app_nil_r. split; [|auto]. rewrite S. rewrite (Q y Y) at 1. rewrite <- S. reflexivity.
      * injection S as <- _. destruct (H1 m). reflexivity.
    + exists (length x), (length y). split; [|auto]. rewrite S. rewrite (Q (c :: x) X) at 1. rewrite (Q y Y) at 1. reflexivity.
  - exists (Some t). split; [reflexivity|]. exists t. split; [exact L|]. right. split; [reflexivity|]. intros u ->.
    destruct F as (a & b & Et & Ea & N). destruct a as [|z a]; [cbn [List.length] in Ea; lia|]. injection Et as <- _. apply N. left. reflexivity.
  - exists (Some t). split; [reflexivity|]. exists t. split; [exact L|]. right. split; [reflexivity|]. intros u ->. apply F. left. reflexivity.
Qed.
Print Assumptions C99_getkey_string.

Definition given (com : list ascii) : option (list ascii) := match com with [] => None | _ => Some (" "%char :: com) end.

(* setkey writes one card.  If a card has the name already, the first one is replaced where it is;
   otherwise the card is added at the end, before the card END if there is one.  No other card is
   touched. *)
Theorem C99_setkey : forall body tail key value com, cards body -> closing body tail -> length key <= 8 ->
  length (entry key value (given com)) <= 80 ->
  exists new, length new <= 80 /\
    (((forall d, In d body -> ~ named d key) /\ new = entry key value (given com) /\
      setkey (concat (body ++ tail)) key value com = Ok (true, concat (body ++ [padded 80 new] ++ tail))) \/
     (exists p old q, first_named body key p old q /\
      setkey (concat (body ++ tail)) key value com = Ok (true, concat (p ++ [padded 80 new] ++ q ++ tail)) /\
      (* the comment: the one given, else that of the card replaced, cut at the end of the card *)
      ((new = entry key value (given com) /\ (com <> [] \/ remark old None)) \/
       (com = [] /\ exists w, remark old (Some w) /\ let s := entry key value (Some w) in
          (length s <= 80 -> new = s) /\ (80 < length s -> new = firstn 80 s \/ ((exists u, s = u ++ ["&"%char]) /\ new = firstn 79 s ++ ["&"%char])))))).
Proof.
  intros body tail key value com C Cl Lk Le.
  assert (Ct : cards (body ++ tail)).
  { apply cards_app. split; [exact C|]. destruct Cl as [->|(-> & _)]; [intros c [<-|[]]; reflexivity|intros c []]. }
  unfold setkey. destruct (Nat.ltb_spec 8 (length key)); [lia|]. cbv zeta.
  set (ent := key ++ repeat " "%char (8 - length key) ++ ["="; " "]%char ++ value ++ match com with [] => [] | _ => [" "; "/"; " "]%char ++ com end).
  assert (Ee : ent = entry key value (given com)) by (unfold ent, entry, given; destruct com; reflexivity).
  rewrite Ee. clear Ee. clearbody ent. clear ent. set (ent := entry key value (given com)) in *.
  destruct (Nat.ltb_spec 80 (length ent)); [lia|].
  assert (Ip : exists ip, (if 80 <=? length (concat (body ++ tail)) then
        t <- substr (concat (body ++ tail)) (length (concat (body ++ tail)) - 80) 80;;
        Ok (option_map (fun p => p + (length (concat (body ++ tail)) - 80)) (sfind ["E"%char; "N"%char; "D"%char] t 0))
      else Ok None) = Ok ip /\ ((ip = None /\ tail = []) \/ (ip = Some (length (concat body)) /\ tail = [end_card]))).
  { assert (Lst : forall b c, body ++ tail = b ++ [c] -> substr (concat (body ++ tail)) (length (concat (body ++ tail)) - 80) 80 = Ok c).
    { intros b c E. rewrite E in Ct |- *. apply cards_app in Ct. destruct Ct as [Cb Cc]. rewrite concat_app. cbn [List.concat]. rewrite app_nil_r.
      assert (Lc : length c = 80) by (apply Cc; left; reflexivity). rewrite app_length, Lc. replace (length (concat b) + 80 - 80) with (length (concat b)) by lia.
      rewrite <- Lc at 1. pose proof (substr_mid (concat b) c []) as T. rewrite app_nil_r in T. exact T. }
    destruct Cl as [->|(-> & Ne)].
    - rewrite (Lst body end_card eq_refl). rewrite (concat_len _ Ct), app_length. cbn [List.length].
      destruct (Nat.leb_spec 80 (80 * (length body + 1))); [|lia]. cbn [obind]. eexists. split; [reflexivity|]. right. split; [|reflexivity].
      change (sfind ["E"; "N"; "D"]%char end_card 0) with (Some 0). cbn [option_map]. f_equal. rewrite (concat_len body C). lia.
    - destruct (Nat.leb_spec 80 (length (concat (body ++ [])))) as [L8|L8]; [|exists None; auto].
      destruct (exists_last (l := body)) as (b & c & Eb).
      { intros ->. cbn in L8. lia. }
      rewrite (Lst b c) by (rewrite app_nil_r; exact Eb). cbn [obind]. specialize (Ne b c Eb).
      unfold sfind. cbn [Nat.leb skipn]. pose proof (find_at_spec ["E"; "N"; "D"]%char c 0) as F.
      destruct (find_at _ c 0) as [k|]; [|exists None; auto]. exfalso. apply Ne. exists k. destruct F as (a & b' & -> & -> & _). exists a, b'. split; reflexivity. }
  destruct Ip as (ip & -> & Ip). cbn [obind].
  rewrite (concat_len _ Ct). replace (80 * length (body ++ tail) / 80) with (length (body ++ tail)) by (rewrite Nat.mul_comm, Nat.div_mul; lia).
  destruct (set_loop_ok (body ++ tail) [] key ent (match com with [] => true | _ => false end) ip Ct) as [(E & N)|(p & c & q & e & (Eq & Nc & F) & W & E)];
    cbn [app List.length] in E; rewrite E; cbn [obind]; clear E.
  - exists ent. split; [exact Le|]. left. split; [intros d I; apply N, in_or_app; auto|]. split; [reflexivity|].
    fold (padded 80 ent). rewrite !concat_app. cbn [List.concat]. rewrite app_nil_r.
    destruct Ip as [(-> & ->)|(-> & ->)].
    + cbn [List.concat]. rewrite !app_nil_r. reflexivity.
    + cbn [List.concat]. rewrite !app_nil_r. destruct (Nat.leb_spec (length (concat body)) (length (concat body ++ end_card))) as [|K]; [|rewrite app_length in K; lia].
      rewrite firstn_len_app, skipn_len_app. reflexivity.
  - (* the card replaced is in the body *)
    assert (B : exists q', body = p ++ c :: q' /\ q = q' ++ tail).
    { destruct Cl as [->|(-> & _)].
      - destruct q as [|q0 q1] using rev_ind.
        + apply app_inj_tail in Eq. destruct Eq as [_ <-]. exfalso. revert Nc. apply named_not. cbn. intuition discriminate.
        + clear IHq1. change (p ++ c :: q1 ++ [q0]) with (p ++ (c :: q1) ++ [q0]) in Eq. rewrite app_assoc in Eq. apply app_inj_tail in Eq. destruct Eq as [-> <-].
          exists q1. auto.
      - exists q. rewrite !app_nil_r in *. auto. }
    destruct B as (q' & -> & ->).
    assert (Ln : length e <= 80).
    { destruct W as [(_ & w & _ & [(L & ->)|(L & [->|(_ & ->)])])|(_ & ->)].
      - exact L.
      - rewrite firstn_length. lia.
      - rewrite app_length, firstn_length. cbn [List.length]. lia.
      - exact Le. }
    exists e. split; [exact Ln|]. right. exists p, c, q'. split; [split; [reflexivity|]; auto|]. split.
    + fold (padded 80 e). rewrite !concat_app. cbn [List.concat].
      destruct (Nat.leb_spec (length (concat p)) (length (concat p ++ concat q' ++ concat tail))) as [|K]; [|rewrite app_length in K; lia].
      rewrite firstn_len_app, skipn_len_app, app_nil_r. reflexivity.
    + destruct W as [(Nk & w & R & W)|(Nk & ->)].
      * right. destruct com; [|discriminate]. split; [reflexivity|]. exists w. split; [exact R|]. cbv zeta in W |- *.
        assert (Es : ent ++ [" "; "/"]%char ++ w = entry key value (Some w)).
        { unfold ent, entry, given. rewrite <- !app_assoc. reflexivity. }
        rewrite Es in W. split; intros L; destruct W as [(L' & W)|(L' & W)]; try lia; assumption.
      * left. split; [reflexivity|]. destruct Nk as [K|K]; [left; destruct com; discriminate|right; exact K].
Qed.
Print Assumptions C99_setkey.

Lemma written : forall body tail key value com, cards body -> closing body tail -> length key <= 8 -> bare key -> ~ In "="%char key ->
  length (entry key value (given com)) <= 80 -> (com = [] -> length value <= 67) ->
  exists l1 l2 c, setkey (concat (body ++ tail)) key value com = Ok (true, concat (l1 ++ c :: l2)) /\ cards (l1 ++ c :: l2) /\
    shaped key value c /\ (forall d, In d l1 -> ~ named d key) /\
    ((body ++ tail = l1 ++ l2 /\ forall d, In d (body ++ tail) -> ~ named d key) \/ exists old, body ++ tail = l1 ++ old :: l2 /\ named old key).
Proof.
  intros body tail key value com C Cl Lk B N Le Lv.
  assert (Ct : cards (body ++ tail)).
  { apply cards_app. split; [exact C|]. destruct Cl as [->|(-> & _)]; [intros c [<-|[]]; reflexivity|intros c []]. }
  assert (Nt : forall d, In d tail -> ~ named d key).
  { intros d I. apply named_not. destruct Cl as [->|(-> & _)]; [|destruct I]. destruct I as [<-|[]]. cbn. intuition discriminate. }
  assert (Lp : forall e, length e <= 80 -> length (padded 80 e) = 80).
  { intros e L. unfold padded. rewrite app_length, repeat_length. lia. }
  destruct (C99_setkey body tail key value com C Cl Lk Le) as (new & Ln & [(F & -> & E)|(p & old & q & (Eb & No & F) & E & W)]).
  - exists body, tail, (padded 80 (entry key value (given com))). split; [exact E|].
    split.
    { apply cards_app. apply cards_app in Ct. split; [tauto|]. intros d [<-|I]; [apply Lp, Le|apply Ct; exact I]. }
    split; [apply shaped_entry; destruct (given com); eauto|]. split; [exact F|]. left. split; [reflexivity|].
    intros d I. apply in_app_or in I. destruct I; auto.
  - exists p, (q ++ tail), (padded 80 new). split; [exact E|].
    rewrite Eb in Ct |- *. rewrite <- app_assoc in Ct |- *. cbn [app] in Ct |- *.
    split.
    { apply cards_app. apply cards_app in Ct. split; [tauto|]. intros d [<-|I]; [apply Lp, Ln|apply Ct; right; exact I]. }
    split.
    { destruct W as [(-> & _)|(-> & w & _ & W1 & W2)].
      - apply shaped_entry; destruct (given com); eauto.
      - specialize (Lv eq_refl). destruct (Nat.le_gt_cases (length (entry key value (Some w))) 80) as [L|L].
        + rewrite (W1 L). apply shaped_entry. eauto.
        + destruct (W2 L) as [->|(_ & ->)]; unfold padded; [|rewrite <- app_assoc]; apply shaped_cut; lia. }
    split; [exact F|]. right. exists old. auto.
Qed.

(* What was written is read back: the text of the value without the blanks at its ends. *)
Theorem C99_set_get : forall body tail key value com t, cards body -> closing body tail ->
  length key <= 8 -> bare key -> ~ In "="%char key -> ~ In "/"%char value -> stripped value t ->
  length (entry key value (given com)) <= 80 -> (com = [] -> length value <= 67) ->
  exists hdr, setkey (concat (body ++ tail)) key value com = Ok (true, hdr) /\ get_text hdr key = Ok (Some t).
Proof.
  intros body tail key value com t C Cl Lk B N Nv S Le Lv.
  destruct (written body tail key value com C Cl Lk B N Le Lv) as (l1 & l2 & c & E & C' & Sh & F & _).
  eexists. split; [exact E|]. destruct (get_text_ok _ key C') as (o & G & L). rewrite G. f_equal.
  eapply lookup_fun; [exact L|]. apply lookup_new; [exact F|eapply shaped_named; eauto|eapply shaped_valued; eauto].
Qed.
Print Assumptions C99_set_get.

(* The other keys are as before. *)
Theorem C99_set_other : forall body tail key value com other, cards body -> closing body tail ->
  length key <= 8 -> bare key -> ~ In "="%char key ->
  length (entry key value (given com)) <= 80 -> (com = [] -> length value <= 67) -> other <> key ->
  exists hdr, setkey (concat (body ++ tail)) key value com = Ok (true, hdr) /\
    get_text hdr other = get_text (concat (body ++ tail)) other /\ getkey_string hdr other = getkey_string (concat (body ++ tail)) other.
Proof.
  intros body tail key value com other C Cl Lk B N Le Lv Ne.
  destruct (written body tail key value com C Cl Lk B N Le Lv) as (l1 & l2 & c & E & C' & Sh & F & O).
  eexists. split; [exact E|].
  assert (Ct : cards (body ++ tail)).
  { apply cards_app. split; [exact C|]. destruct Cl as [->|(-> & _)]; [intros d [<-|[]]; reflexivity|intros d []]. }
  assert (G : get_text (concat (l1 ++ c :: l2)) other = get_text (concat (body ++ tail)) other).
  { destruct (get_text_ok _ other C') as (o & -> & L). destruct (get_text_ok _ other Ct) as (o' & -> & L'). f_equal.
    eapply lookup_fun; [exact L|]. apply lookup_insert.
    - intros K. apply Ne. eapply named_fun; [exact K|]. eapply shaped_named; eauto.
    - destruct O as [(<- & _)|(old & Eo & No)]; [exact L'|]. rewrite Eo in L'. eapply lookup_remove; [|exact L'].
      intros K. apply Ne. eapply named_fun; eauto. }
  split; [exact G|]. unfold getkey_string. rewrite G. reflexivity.
Qed.
Print Assumptions C99_set_other.

(* The number of cards grows by one if the key is new, and stays the same otherwise. *)
Theorem C99_set_size : forall body tail key value com, cards body -> closing body tail ->
  length key <= 8 -> bare key -> ~ In "="%char key ->
  length (entry key value (given com)) <= 80 -> (com = [] -> length value <= 67) ->
  exists hdr, setkey (concat (body ++ tail)) key value com = Ok (true, hdr) /\
    ((lookup (body ++ tail) key None /\ length hdr = length (concat (body ++ tail)) + 80) \/
     (~ lookup (body ++ tail) key None /\ length hdr = length (concat (body ++ tail)))).
Proof.
  intros body tail key value com C Cl Lk B N Le Lv.
  destruct (written body tail key value com C Cl Lk B N Le Lv) as (l1 & l2 & c & E & C' & Sh & F & O).
  eexists. split; [exact E|].
  assert (Ct : cards (body ++ tail)).
  { apply cards_app. split; [exact C|]. destruct Cl as [->|(-> & _)]; [intros d [<-|[]]; reflexivity|intros d []]. }
  rewrite (concat_len _ C'), (concat_len _ Ct). destruct O as [(-> & A)|(old & Eo & No)].
  - left. split; [exact A|]. rewrite !app_length. cbn [List.length]. lia.
  - right. rewrite Eo. split; [|rewrite !app_length; reflexivity]. intros A. apply (A old); [apply in_or_app; right; left; reflexivity|exact No].
Qed.
Print Assumptions C99_set_size.

(* A key or an entry that is too long is refused, and nothing is changed: for any text. *)
Theorem C99_too_long : forall hdr key value com, 8 < length key \/ 80 < length (entry key value (given com)) ->
  setkey hdr key value com = Ok (false, hdr).
Proof.
  intros hdr key value com H. unfold setkey. destruct (Nat.ltb_spec 8 (length key)); [reflexivity|]. destruct H as [H|H]; [lia|]. cbv zeta.
  set (ent := key ++ repeat " "%char (8 - length key) ++ ["="; " "]%char ++ value ++ match com with [] => [] | _ => [" "; "/"; " "]%char ++ com end).
  assert (Ee : ent = entry key value (given com)) by (unfold ent, entry, given; destruct com; reflexivity).
  rewrite Ee. destruct (Nat.ltb_spec 80 (length (entry key value (given com)))); [reflexivity|lia].
Qed.
Print Assumptions C99_too_long.

Definition txt (s : string) : list ascii := list_ascii_of_string s.
Definition card (s : string) : list ascii := padded 80 (txt s).

Example C99_get_ex : let h := [card "NAXIS   =                    2 / number"; card "COMMENT A = 3"; card "A=4/x=y"; card "A = 5"; end_card] in
  get_text (concat h) (txt "A") = Ok (Some (txt "4")) /\ get_text (concat h) (txt "NAXIS") = Ok (Some (txt "2")) /\
  get_text (concat h) (txt "COMMENT") = Ok None /\ get_text (concat h) (txt "COMMENT A") = Ok (Some (txt "3")).
Proof. vm_compute. repeat split. Qed.
Example C99_string_ex : getkey_string (card "A = 'it is' / x") (txt "A") = Ok (Some (txt "it is")) /\
  getkey_string (card "A = it's") (txt "A") = Ok (Some (txt "it's")).
Proof. vm_compute. split; reflexivity. Qed.
Example C99_set_ex : setkey (card "A=4/x" ++ end_card) (txt "A") (txt "7") [] = Ok (true, card "A       = 7 /x" ++ end_card) /\
  setkey (card "A=4/x" ++ end_card) (txt "A") (txt "7") (txt "new") = Ok (true, card "A       = 7 / new" ++ end_card) /\
  setkey (card "A=4/x" ++ end_card) (txt "B") (txt "7") [] = Ok (true, card "A=4/x" ++ card "B       = 7" ++ end_card) /\
  setkey [] (txt "B") (txt "7") [] = Ok (true, card "B       = 7").
Proof. vm_compute. repeat split. Qed.
Example C99_closing_ex : closing [card "A=4/x"] [end_card] /\ closing [card "A=4/x"] [] /\ closing [] [] /\ bare (txt "A") /\ stripped (txt " 7 ") (txt "7").
Proof.
  split; [left; reflexivity|]. split.
  - right. split; [reflexivity|]. intros b c E (i & u & v & K & _). destruct b as [|? [|? ?]]; try discriminate. injection E as <-.
    assert (H : existsb (fun c => Ascii.eqb c "E"%char) (card "A=4/x") = false) by reflexivity. rewrite K in H.
    rewrite existsb_app in H. cbn in H. rewrite Bool.orb_true_r in H. discriminate.
  - split; [right; split; [reflexivity|]; intros b c E; destruct b; discriminate|]. split.
    + split; intros; [injection H as <- _|destruct u as [|? [|? ?]]; try discriminate; injection H as <-]; cbn; intuition discriminate.
    + exists (txt " "), (txt " "). split; [reflexivity|]. split; [intros d [<-|[]]; left; reflexivity|]. split; [intros d [<-|[]]; left; reflexivity|].
      split; intros; [injection H as <- _|destruct u as [|? [|? ?]]; try discriminate; injection H as <-]; cbn; intuition discriminate.
Qed.

(* Finding: without a card END, the letters END anywhere in the last card are taken for it: the new
   card is inserted in the middle, and neither key can be read afterwards. *)
Theorem C99_end_refuted : exists hdr hdr', length hdr = 80 /\ get_text hdr (txt "TREND") = Ok (Some (txt "1")) /\
  setkey hdr (txt "A") (txt "2") [] = Ok (true, hdr') /\ get_text hdr' (txt "A") = Ok None /\ get_text hdr' (txt "TREND") = Ok None.
Proof. exists (card "TREND   = 1"). eexists. split; [reflexivity|]. split; [vm_compute; reflexivity|]. split; [vm_compute; reflexivity|]. split; vm_compute; reflexivity. Qed.
Print Assumptions C99_end_refuted.

(* Finding: a slash within the quotes of a string is taken for the beginning of the comment: the
   string is cut there. *)
Theorem C99_slash_refuted : exists hdr, length hdr = 80 /\ hdr = card "URL     = 'http://a/b' / where" /\
  getkey_string hdr (txt "URL") = Ok (Some (txt "http:")).
Proof. eexists. split; [|split; [reflexivity|]]; vm_compute; reflexivity. Qed.
Print Assumptions C99_slash_refuted.

(* Finding: and writing a new value leaves the rest of the old string as the comment. *)
Theorem C99_slash_comment_refuted : setkey (card "DIR     = 'a/b'") (txt "DIR") (txt "'c'") [] = Ok (true, card "DIR     = 'c' /b'").
Proof. vm_compute. reflexivity. Qed.
Print Assumptions C99_slash_comment_refuted.

(* Finding: the quotes at the end of a string are all removed, and doubled quotes are not made
   single: 'a''' is a', 'it''s' is it's in the FITS standard. *)
Theorem C99_quotes_refuted : getkey_string (card "K       = 'a'''") (txt "K") = Ok (Some (txt "a")) /\
  getkey_string (card "K       = 'it''s'") (txt "K") = Ok (Some (txt "it''s")).
Proof. vm_compute. split; reflexivity. Qed.
Print Assumptions C99_quotes_refuted.

(* Finding: in a header whose length is not a multiple of 80, a new card is not aligned, and cannot
   be read; the call says that it succeeded. *)
Theorem C99_unaligned_refuted : exists hdr hdr', get_text hdr (txt "A") = Ok (Some (txt "1")) /\
  setkey hdr (txt "B") (txt "2") [] = Ok (true, hdr') /\ get_text hdr' (txt "B") = Ok None.
Proof. exists (txt "A = 1"). eexists. split; [vm_compute; reflexivity|]. split; vm_compute; reflexivity. Qed.
Print Assumptions C99_unaligned_refuted.

(* Finding: a key with a blank at its end or in front is accepted, but is never found again: it can be added many times. *)
Theorem C99_blank_key_refuted : (forall l key, cards l -> ~ bare key -> get_text (concat l) key = Ok None) /\
  exists h h', setkey [] (txt "A ") (txt "1") [] = Ok (true, h) /\ setkey h (txt "A ") (txt "1") [] = Ok (true, h') /\
    length h' = 160 /\ get_text h' (txt "A ") = Ok None.
Proof.
  split.
  - intros l key C Nb. destruct (get_text_ok l key C) as (o & -> & L). destruct o as [t|]; [|reflexivity].
    destruct L as (p & c & q & (_ & (a & b & _ & _ & (x & y & _ & _ & _ & B)) & _) & _). contradiction.
  - do 2 eexists. split; [vm_compute; reflexivity|]. split; [vm_compute; reflexivity|]. split; vm_compute; reflexivity.
Qed.
Print Assumptions C99_blank_key_refuted.

(* Finding: when the old comment fills the card and ends with an ampersand, the end of a long new
   value is overwritten by the ampersand. *)
Theorem C99_ampersand_refuted : exists old v h, length old = 80 /\ length v = 70 /\ ~ In "/"%char v /\
  setkey old (txt "A") v [] = Ok (true, h) /\ get_text h (txt "A") = Ok (Some (firstn 69 v ++ ["&"%char])) /\ firstn 69 v ++ ["&"%char] <> v.
Proof.
  exists (txt "A       = 1 /" ++ repeat "x"%char 66 ++ ["&"%char]), (repeat "9"%char 70). eexists.
  split; [reflexivity|]. split; [reflexivity|]. split; [intros I; apply repeat_spec in I; discriminate|].
  split; [vm_compute; reflexivity|]. split; [vm_compute; reflexivity|]. vm_compute. intros K. discriminate.
Qed.
Print Assumptions C99_ampersand_refuted.
