(* C100: parsed FITS headers. *)
From Coq Require Import Ascii String Lia.
From Verif Require Import Base StrModel StrSpec StrProofs KeySpec KeyProofs HdrModel HdrSpec HdrProofs HdrProofs2.
From Verif Require KeyModel.
Local Open Scope list_scope.
Local Open Scope nat_scope.
Notation length := List.length.
Notation concat := List.concat.

(* parse_header gives one keyword per card, in their order: the name, the text of the value (with
   its quotes) and the comment (with its slash) *)
Theorem C100_parse : forall l, cards l -> (forall c, In c l -> ~ starts_with continuation c) ->
  exists ks, parse_header (concat l) = Ok ks /\ Forall2 reads l ks /\ length ks = length l /\
    (forall ks', Forall2 reads l ks' -> ks' = ks).
Proof.
  intros l C N. assert (E : exists ks, Forall2 reads l ks).
  { clear C. induction l as [|c l IH]; [exists []; constructor|]. destruct IH as (ks & F); [intros d I; apply N; right; exact I|].
    destruct (reads_total c) as (k & R); [apply N; left; reflexivity|]. exists (k :: ks). constructor; assumption. }
  destruct E as (ks & F). exists ks. pose proof (parse_ok l ks C F) as P. split; [exact P|]. split; [exact F|].
  split; [clear - F; induction F; cbn [List.length]; congruence|].
  intros ks' F'. rewrite (parse_ok l ks' C F') in P. congruence.
Qed.
Print Assumptions C100_parse.
(* serialize_header writes every keyword as a card of 80 characters, cut or filled with blanks *)
Theorem C100_serialize : forall ks, exists l, serialize_header ks = Ok (concat l) /\ cards l /\
  Forall2 (fun k c => exists t, laid k t /\ ((80 < length t /\ c = firstn 80 t) \/ (length t <= 80 /\ c = padded 80 t))) ks l.
Proof.
  intros ks. destruct (serialize_ok ks) as (l & E & F). exists l. split; [exact E|]. split.
  - clear E. induction F as [|k c ks l K F IH]; [intros ? []|]. intros d [<-|I]; [eapply card_len; eauto|auto].
  - clear E. induction F as [|k c ks l (t & L & ->) F IH]; constructor; [|assumption]. exists t. split; [exact L|].
    destruct (Nat.ltb_spec 80 (length t)); [left|right]; auto.
Qed.
Print Assumptions C100_serialize.
(* what is written is read back: for keywords that fit in a card, with no blanks around their
   texts, and without the characters that delimit them *)
Theorem C100_roundtrip : forall ks, Forall normal ks -> exists h, serialize_header ks = Ok h /\ length h = 80 * length ks /\
  parse_header h = Ok ks.
Proof.
  intros ks N. destruct (serialize_ok ks) as (l & E & F). exists (concat l). split; [exact E|].
  assert (C : cards l). { clear E N. induction F as [|k c ks l K F IH]; [intros ? []|]. intros d [<-|I]; [eapply card_len; eauto|auto]. }
  split.
  - rewrite (concat_len l C). f_equal. clear - F. induction F; cbn [List.length]; congruence.
  - apply parse_ok; [exact C|]. clear C E. induction F as [|k c ks l (t & L & ->) F IH]; [constructor|].
    inversion N as [|? ? Nk N']; subst. constructor; [|auto].
    assert (T : length t <= 80). { destruct Nk as (_ & _ & (t' & L' & T) & _). rewrite (laid_fun _ _ _ L L'). exact T. }
    destruct (Nat.ltb_spec 80 (length t)); [lia|]. apply normal_reads; assumption.
Qed.
Print Assumptions C100_roundtrip.
(* a string goes on in a card CONTINUE: the two parts are joined without the ampersands, and the
   comment is that of the last card *)
Theorem C100_continue : forall l line ks k u d s w com, cards (l ++ [line]) -> parse_header (concat l) = Ok (ks ++ [k]) ->
  value k = ["'"%char] ++ u ++ ["'"%char] -> u <> [] -> starts_with continuation line ->
  stripped (skipn 10 line) (["'"%char] ++ s ++ ["'"%char] ++ w) -> ~ In "'"%char s -> stripped s d -> d <> [] -> stripped w com ->
  exists u' d', joint u u' /\ joint d d' /\
    parse_header (concat (l ++ [line])) = Ok (ks ++ [Keyword (key k) (["'"%char] ++ u' ++ d' ++ ["'"%char]) com (novalue k)]).
Proof.
  intros l line ks k u d s w com C E V Nu Cn R Ns Sd Nd Sw. destruct (join_total u) as (u' & Ju), (join_total d) as (d' & Jd).
  exists u', d'. split; [exact Ju|]. split; [exact Jd|]. rewrite (parse_app _ _ C), E. cbn [obind ofold].
  erewrite read_more; [|exact Cn|].
  2:{ eapply continue_ok; eauto. apply cards_app in C. destruct C as [_ C]. rewrite (C line (or_introl eq_refl)). lia. }
  reflexivity.
Qed.
Print Assumptions C100_continue.
(* filter_wcs keeps the cards whose name begins with one of the words on the astrometry, in their
   order.  (Cards RADECSYS and SECPIX come out twice.) *)
Theorem C100_filter : forall l, cards l -> exists l', filter_wcs (concat l) = Ok (concat l') /\ cards l' /\ filtered l l' /\
  (forall c, In c l' <-> In c l /\ kept c).
Proof.
  intros l C. eexists. split; [apply filter_hits, C|]. pose proof (filtered_ok l) as F. pose proof (filtered_in _ _ F) as I.
  split; [|auto]. intros c Ic. apply C, I, Ic.
Qed.
Print Assumptions C100_filter.
(* in the filtered header the keywords on the astrometry have their values, and no other keyword is
   left *)
Theorem C100_filter_get : forall l, cards l -> (forall c x u, In c l -> c = x :: u -> ~ In x white) ->
  exists h, filter_wcs (concat l) = Ok h /\
    (forall k, kept k -> KeyModel.get_text h k = KeyModel.get_text (concat l) k /\
                         KeyModel.getkey_string h k = KeyModel.getkey_string (concat l) k) /\
    (forall k, ~ kept k -> KeyModel.get_text h k = Ok None).
Proof.
  intros l C H. eexists. split; [apply filter_hits, C|]. pose proof (filtered_ok l) as F. set (l' := flat_map _ l) in *.
  assert (C' : cards l'). { intros c I. apply (filtered_in _ _ F) in I. apply C, I. }
  assert (G : forall k, kept k -> KeyModel.get_text (concat l') k = KeyModel.get_text (concat l) k).
  { intros k K. destruct (get_text_ok l k C) as (o & -> & L), (get_text_ok l' k C') as (o' & -> & L').
    f_equal. eapply lookup_fun; [exact L'|]. eapply lookup_filtered; eauto. }
  split.
  - intros k K. split; [auto|]. unfold KeyModel.getkey_string. rewrite (G k K). reflexivity.
  - intros k K. destruct (get_text_ok l' k C') as (o' & -> & L'). f_equal. eapply lookup_fun; [exact L'|]. eapply lookup_dropped; eauto.
Qed.
Print Assumptions C100_filter_get.

Definition card (s : string) : list ascii := padded 80 (lit s).
Example ex_parse : parse_header (card "SIMPLE  =                    T / file" ++ card "OBJECT  = 'M 31  / a' / name" ++ card "COMMENT text" ++ card "HISTORY a = b / c" ++ card "END") =
  Ok [Keyword (lit "SIMPLE") (lit "T") (lit "/ file") false; Keyword (lit "OBJECT") (lit "'M 31  / a'") (lit "/ name") false;
      Keyword (lit "COMMENT text") [] [] true; Keyword (lit "HISTORY a = b / c") [] [] true; Keyword (lit "END") [] [] true].
Proof. vm_compute. reflexivity. Qed.
Example ex_write : serialize_header [Keyword (lit "HIERARCH ESO A") (lit "2") (lit "/ x") false; Keyword (lit "OBJECT") (lit "'M'") (lit "/ y") false] =
  Ok (card "HIERARCH ESO A = 2 / x" ++ card "OBJECT  = 'M'                  / y").
Proof. vm_compute. reflexivity. Qed.
Example ex_continue : parse_header (card "A       = 'one &' / x" ++ card "CONTINUE  'two&' / y" ++ card "CONTINUE  'three'") =
  Ok [Keyword (lit "A") (lit "'one twothree'") [] false].
Proof. vm_compute. reflexivity. Qed.
Example ex_filter : filter_wcs (card "NAXIS   = 2" ++ card "CRVAL1  = 5" ++ card "EXPTIME = 1" ++ card "END") = Ok (card "CRVAL1  = 5" ++ card "END").
Proof. vm_compute. reflexivity. Qed.
Example ex_normal : normal (Keyword (lit "OBJECT") (lit "'M'") (lit "/ y") false).
Proof.
  split; [|split; [|split]]; cbn [key value comment novalue].
  - split; [intros c u E; injection E as <- _|intros u c E; destruct u as [|? [|? [|? [|? [|? [|? [|? ?]]]]]]]; try discriminate E; injection E; intros; subst c]; cbn; intuition discriminate.
  - split; [intros c u E; injection E as <- _|intros u c E; destruct u as [|? [|? [|? [|? ?]]]]; try discriminate E; injection E; intros; subst c]; cbn; intuition discriminate.
  - eexists. split; [apply laid_quoted; [reflexivity|intros (r & E); discriminate E|exists (lit "M'"); reflexivity]|vm_compute; lia].
  - split; [intros (r & E); discriminate E|]. split; [intros (r & E); discriminate E|]. split.
    + intros c I J. cbn in I, J. destruct I as [<-|[<-|[]]]; intuition discriminate.
    + left. exists (lit "M"). split; [reflexivity|]. cbn. intuition discriminate.
Qed.

(* Finding: the text of a COMMENT card is searched for "=" and "/" like any other: it is cut into a
   name, a value and a comment, and writing the header changes it. *)
Theorem C100_comment_refuted : exists k h, parse_header (card "COMMENT see x=1 below") = Ok [k] /\ key k = lit "COMMENT see x" /\
  value k = lit "1 below" /\ serialize_header [k] = Ok h /\ h = card "COMMENT see x=              1 below".
Proof. do 2 eexists. split; [vm_compute; reflexivity|]. split; [reflexivity|]. split; [reflexivity|]. split; vm_compute; reflexivity. Qed.
Print Assumptions C100_comment_refuted.
(* Finding: a doubled quote ends a string: what is left is taken for the comment, and the header
   that is written holds another value. *)
Theorem C100_quotes_refuted : exists k h, parse_header (card "K       = 'it''s'") = Ok [k] /\ value k = lit "'it'" /\ comment k = lit "'s'" /\
  serialize_header [k] = Ok h /\ h = card "K       = 'it'                 's'".
Proof. do 2 eexists. split; [vm_compute; reflexivity|]. split; [reflexivity|]. split; [reflexivity|]. split; vm_compute; reflexivity. Qed.
Print Assumptions C100_quotes_refuted.
(* Finding: a header whose first card is CONTINUE reads the last of no keywords. *)
Theorem C100_first_continue_UB : forall line rest, cards (line :: rest) -> starts_with continuation line -> parse_header (concat (line :: rest)) = UB.
Proof.
  intros line rest C S. unfold parse_header. rewrite (cut_cards _ C). cbn [obind ofold]. unfold read_line at 1.
  destruct (starts (lit "HISTORY ") line) eqn:Eh.
  - apply starts_iff in Eh. destruct S as (r & ->), Eh as (r' & Eh). discriminate Eh.
  - rewrite (proj2 (starts_iff (lit "CONTINUE ") line) S). reflexivity.
Qed.
Print Assumptions C100_first_continue_UB.
(* Finding: a continuation with an empty string, or of a keyword with an empty value (such as a card
   COMMENT), reads the last character of an empty string. *)
Theorem C100_empty_continue_UB : parse_header (card "K       = 'ab&'" ++ card "CONTINUE  '' / c") = UB /\
  parse_header (card "COMMENT x" ++ card "CONTINUE  'more'") = UB /\
  parse_header (card "K       = ''" ++ card "CONTINUE  'more'") = UB.
Proof. split; [|split]; vm_compute; reflexivity. Qed.
Print Assumptions C100_empty_continue_UB.
(* Finding: blanks at the beginning of the continuation are lost, so that words run together; and a
   keyword that has a number as its value is changed by a card CONTINUE. *)
Theorem C100_continue_blank_refuted : parse_header (card "K       = 'hello&'" ++ card "CONTINUE  ' world'") = Ok [Keyword (lit "K") (lit "'helloworld'") [] false] /\
  parse_header (card "N       = 12" ++ card "CONTINUE  '3'") = Ok [Keyword (lit "N") (lit "'123'") [] false].
Proof. split; vm_compute; reflexivity. Qed.
Print Assumptions C100_continue_blank_refuted.
(* Finding: a string put together from several cards is written in one card, cut at 80 characters
   without its closing quote; the rest of it, and the comment, are lost. *)
Theorem C100_long_refuted : exists l k h, cards l /\ parse_header (concat l) = Ok [k] /\ length (value k) = 102 /\ serialize_header [k] = Ok h /\
  length h = 80 /\ exists k', parse_header h = Ok [k'] /\ value k' = firstn 70 (value k).
Proof.
  exists [card "K       = '12345678901234567890123456789012345678901234567890&'"; card "CONTINUE  '12345678901234567890123456789012345678901234567890'"].
  do 2 eexists. split; [intros c [<-|[<-|[]]]; vm_compute; reflexivity|]. split; [vm_compute; reflexivity|]. split; [reflexivity|].
  split; [vm_compute; reflexivity|]. split; [reflexivity|]. eexists. split; [vm_compute; reflexivity|]. reflexivity.
Qed.
Print Assumptions C100_long_refuted.
(* Finding: filter_wcs writes a card RADECSYS twice, because it begins with RA as well, and a card
   SECPIX twice because this is twice in the list. *)
Theorem C100_double_refuted : forall c, length c = 80 -> doubled c -> filter_wcs c = Ok (c ++ c).
Proof.
  intros c L D. assert (C : cards [c]) by (intros d [<-|[]]; exact L). pose proof (filter_hits [c] C) as E. cbn [List.concat] in E. rewrite app_nil_r in E.
  rewrite E. f_equal. replace (flat_map _ [c]) with [c; c]; [cbn [List.concat]; rewrite app_nil_r; reflexivity|].
  eapply filtered_fun; [|apply filtered_ok]. apply filtered_twice; [exact D|constructor].
Qed.
Print Assumptions C100_double_refuted.
(* Finding: the names are compared by their beginning only: filter_wcs keeps RATE, DECKER and
   ENDTIME, and drops WCSAXES, RADESYS being kept only because it begins with RA. *)
Theorem C100_prefix_refuted : filter_wcs (card "RATE    = 5" ++ card "DECKER  = 'a'" ++ card "ENDTIME = 3") = Ok (card "RATE    = 5" ++ card "DECKER  = 'a'" ++ card "ENDTIME = 3") /\
  filter_wcs (card "WCSAXES = 2" ++ card "RADESYS = 'ICRS'") = Ok (card "RADESYS = 'ICRS'").
Proof. split; vm_compute; reflexivity. Qed.
Print Assumptions C100_prefix_refuted.
