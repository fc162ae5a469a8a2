From Coq Require Import Ascii NArith Lia.
From Verif Require Import Base VecModel VecProofs StrModel StrSpec StrProofs StrProofs2 StrProofs3
  AsciiModel AsciiSpec AsciiProofs AsciiProofs2 AsciiProofs3.
Local Open Scope nat_scope.

(* --- lines --- *)
Lemma pieces_nonempty s : pieces s <> [].
Proof. destruct s as [|c t]; cbn; [discriminate|]. destruct (Ascii.eqb c nl); [discriminate|]. destruct (pieces t); discriminate. Qed.

Lemma pieces_free s : Forall (free_of [nl]) (pieces s).
Proof.
  induction s as [|c t IH]; cbn [pieces]; [repeat constructor; intros c []|].
  destruct (Ascii.eqb_spec c nl) as [->|N].
  - constructor; [intros c []|exact IH].
  - destruct (pieces t) as [|h r]; inversion IH as [|? ? H1 H2]; subst; constructor; auto.
    + intros x [<-|[]] [H|[]]; congruence.
    + intros x [<-|I]; [intros [H|[]]; congruence|now apply H1].
Qed.
Lemma pieces_joined s : joined (pieces s) [nl] = s.
Proof.
  induction s as [|c t IH]; [reflexivity|]. cbn [pieces].
  pose proof (pieces_nonempty t) as N. destruct (Ascii.eqb_spec c nl) as [->|Nc].
  - destruct (pieces t) as [|h r]; [easy|]. change (joined ([] :: h :: r) [nl]) with (nl :: joined (h :: r) [nl]). now rewrite IH.
  - destruct (pieces t) as [|h r]; [easy|]. destruct r as [|h' r].
    + cbn in IH |- *. now rewrite IH.
    + change (joined ((c :: h) :: h' :: r) [nl]) with (c :: joined (h :: h' :: r) [nl]). now rewrite IH.
Qed.
Lemma lines_pieces s : lines_of s (pieces s).
Proof. split; [apply pieces_nonempty|]. split; [apply pieces_joined|apply pieces_free]. Qed.

Lemma pieces_line l : free_of [nl] l -> pieces l = [l].
Proof.
  induction l as [|c t IH]; intro F; [reflexivity|]. cbn [pieces].
  destruct (Ascii.eqb_spec c nl) as [->|N]; [exfalso; apply (F nl); now left|].
  rewrite IH; [reflexivity|]. intros x I. apply F. now right.
Qed.
Lemma pieces_app l s : free_of [nl] l -> pieces (l ++ nl :: s) = l :: pieces s.
Proof.
  induction l as [|c t IH]; intro F; [reflexivity|]. cbn [pieces app].
  destruct (Ascii.eqb_spec c nl) as [->|N]; [exfalso; apply (F nl); now left|].
  rewrite IH; [reflexivity|]. intros x I. apply F. now right.
Qed.
Lemma lines_fun s ls : lines_of s ls -> ls = pieces s.
Proof.
  intros (N & J & F). revert s J. induction ls as [|l ls IH]; intros s J; [easy|].
  inversion F as [|? ? F1 F2]; subst. destruct ls as [|l' ls].
  - cbn. now rewrite pieces_line.
  - change (joined (l :: l' :: ls) [nl]) with (l ++ nl :: joined (l' :: ls) [nl]).
    change (joined (l :: l' :: ls) ["010"%char]) with (l ++ nl :: joined (l' :: ls) [nl]).
    rewrite pieces_app by exact F1. f_equal. apply IH; [discriminate|exact F2|reflexivity].
Qed.

Lemma drop_crs_spec r : exists t, r = t ++ drop_crs r /\ Forall (fun c => c = cr \/ c = nl) t /\
  (drop_crs r = [] \/ exists c u, drop_crs r = c :: u /\ c <> cr /\ c <> nl).
Proof.
  induction r as [|c r IH]; [exists []; repeat split; auto|]. cbn [drop_crs].
  destruct (Ascii.eqb_spec c cr) as [->|N1]; cbn [orb].
  - destruct IH as (t & E & F & D). exists (cr :: t). split; [cbn; now rewrite <- E|]. split; [constructor; auto|exact D].
  - destruct (Ascii.eqb_spec c nl) as [->|N2].
    + destruct IH as (t & E & F & D). exists (nl :: t). split; [cbn; now rewrite <- E|]. split; [constructor; auto|exact D].
    + exists []. split; [reflexivity|]. split; [constructor|]. right. eauto.
Qed.
Lemma getline_chomped l : free_of [nl] l -> chomped l (getline l).
Proof.
  intro F. destruct (drop_crs_spec (rev l)) as (t & E & Ft & D). unfold getline.
  assert (E' : l = rev (drop_crs (rev l)) ++ rev t) by (rewrite <- rev_app_distr, <- E; now rewrite rev_involutive).
  exists (rev t). split; [exact E'|]. split.
  - intros c I. apply in_rev in I. pose proof (proj1 (Forall_forall _ _) Ft c I) as [->| ->]; [now left|].
    exfalso. apply (F nl); [|now left]. rewrite E'. apply in_or_app. right. now apply in_rev in I.
  - destruct D as [->|(c & u & -> & N & _)]; [now left|]. right. exists (rev u), c. now split.
Qed.
Lemma chomped_fun l : free_of [nl] l -> forall l', chomped l l' -> l' = getline l.
Proof.
  intros F l' (t & -> & M & D). unfold getline. rewrite rev_app_distr.
  assert (M' : made_of ["013"%char] (rev t)) by (intros c I; apply M; now apply in_rev).
  clear M. induction (rev t) as [|c r IH].
  - cbn [app]. destruct D as [->|(a & c & -> & N)]; [reflexivity|]. rewrite rev_app_distr. cbn [rev app drop_crs].
    destruct (Ascii.eqb_spec c cr) as [->|_]; [now elim N|]. cbn [orb].
    destruct (Ascii.eqb_spec c nl) as [->|_].
    { exfalso. apply (F nl); [|now left]. rewrite <- !app_assoc. apply in_or_app. right. now left. }
    cbn [rev]. now rewrite rev_involutive.
  - cbn [app drop_crs]. assert (c = cr) as -> by (destruct (M' c) as [<-|[]]; [now left|reflexivity]).
    rewrite Ascii.eqb_refl. cbn [orb]. apply IH. intros c I. apply M'. now right.
Qed.

(* --- used lines --- *)
Lemma data_line_iff o l : pattern_ok o -> data_line o l = true <-> ~ ignored o l.
Proof.
  intro PO. unfold data_line. cbn [find_first]. change (skipn 0 l) with l.
  pose proof (first_at_spec (hasnt blank2) l 0) as F.
  destruct (first_at (hasnt blank2) l 0) as [p|].
  - destruct F as (g & c & b & E & -> & Pc & Pg). cbn [Nat.add].
    assert (Mg : made_of blank_chars g).
    { intros x I. apply Pg in I. now apply hasnt_false in I. }
    apply hasnt_In in Pc.
    assert (NB : ~ made_of blank_chars l).
    { intro M. apply Pc. apply M. rewrite E. apply in_or_app. right. now left. }
    destruct (auto_skip o) eqn:A.
    2:{ cbn. split; [|reflexivity]. intros _ [H|[H _]]; [easy|congruence]. }
    destruct PO as [PO|(c0 & t & Ep & Nc)]; [congruence|]. cbn [andb].
    pose proof (sfind_spec (skip_pattern o) [] l) as S. cbn [app length Nat.add] in S.
    assert (Pos : forall g' r', made_of blank_chars g' -> l = g' ++ skip_pattern o ++ r' -> length g' = length g).
    { intros g' r' M' E'. rewrite Ep in E'. rewrite E in E'. clear - E' M' Mg Pc Nc.
      revert g' E' M'. induction g as [|x g IH]; intros [|y g'] E' M'; auto.
      - cbn in E'. injection E' as -> _. exfalso. apply Pc, M'. now left.
      - cbn in E'. injection E' as -> _. exfalso. apply Nc, Mg. now left.
      - cbn in E'. injection E' as _ E'. cbn. f_equal. apply IH; auto.
        + intros z I. apply Mg. now right.
        + intros z I. apply M'. now right. }
    destruct (sfind (skip_pattern o) l 0) as [q|].
    + destruct S as (a & b' & Ea & -> & Min).
      destruct (Nat.eqb_spec (length a) (length g)) as [Eq|Ne]; cbn [negb].
      * split; [discriminate|]. intro H. exfalso. apply H. right. split; [exact A|]. exists a, b'. split; [|exact Ea].
        rewrite Ea in E. assert (a = g) as ->; [|exact Mg].
        { apply (f_equal (firstn (length a))) in E. rewrite firstn_len_app in E. rewrite Eq, firstn_len_app in E. exact E. }
      * split; [|reflexivity]. intros _ [H|(_ & g' & r' & M' & E')]; [easy|].
        apply Ne. pose proof (Pos g' r' M' E') as P1.
        assert (length a <= length g') by (apply Min; exists g', r'; easy).
        assert (length g <= length a); [|lia].
        destruct (Nat.le_gt_cases (length g) (length a)) as [|X]; [assumption|]. exfalso.
        (* the pattern would start inside the blanks *)
        assert (In c0 g).
        { assert (Y : nth_error l (length a) = Some c0).
          { rewrite Ea, Ep. rewrite nth_error_app2 by lia. now rewrite Nat.sub_diag. }
          rewrite E, nth_error_app1 in Y by lia. now apply nth_error_In in Y. }
        apply Nc, Mg. assumption.
    + cbn. split; [|reflexivity]. intros _ [H|(_ & g' & r' & M' & E')]; [easy|].
      apply S. exists (length g'), g', r'. easy.
  - split; [discriminate|]. intro H. exfalso. apply H. left. intros x I. apply F in I. now apply hasnt_false in I.
Qed.

Lemma used_filter o ls us : pattern_ok o -> used o ls us <-> us = filter (data_line o) ls.
Proof.
  intro PO. split.
  - induction 1 as [|l ls us I U IH|l ls us I U IH]; [reflexivity| |]; cbn [filter].
    + destruct (data_line o l) eqn:E; [|exact IH]. apply data_line_iff in E; [easy|exact PO].
    + apply data_line_iff in I; [|exact PO]. rewrite I. now rewrite IH.
  - revert us. induction ls as [|l ls IH]; intros us ->; [constructor|]. cbn [filter].
    destruct (data_line o l) eqn:E.
    + apply used_take; [now apply data_line_iff|now apply IH].
    + apply used_skip; [|now apply IH].
      (* ignored is decidable through data_line *)
      unfold data_line in E. cbn [find_first] in E. change (skipn 0 l) with l in E.
      pose proof (first_at_spec (hasnt blank2) l 0) as F.
      destruct (first_at (hasnt blank2) l 0) as [p|].
      * destruct F as (g & c & b & Eg & -> & Pc & Pg). right.
        apply Bool.negb_false_iff, andb_prop in E. destruct E as [A E]. split; [exact A|].
        pose proof (sfind_spec (skip_pattern o) [] l) as S. cbn [app length Nat.add] in S.
        destruct (sfind (skip_pattern o) l 0) as [q|]; [|discriminate E].
        destruct S as (a & b' & Ea & -> & Min). apply Nat.eqb_eq in E. cbn in E. exists a, b'. split; [|exact Ea].
        rewrite Ea in Eg. assert (a = g) as ->.
        { apply (f_equal (firstn (length a))) in Eg. rewrite firstn_len_app in Eg. rewrite E, firstn_len_app in Eg. exact Eg. }
        intros x I. apply Pg in I. now apply hasnt_false in I.
      * left. intros x I. apply F in I. now apply hasnt_false in I.
Qed.

Lemma used_lines_iff o content us : pattern_ok o ->
  used_lines o content us <-> us = filter (data_line o) (map getline (pieces content)).
Proof.
  intro PO. split.
  - intros (raw & ls & Hr & Hc & U). apply lines_fun in Hr. subst raw. apply used_filter in U; [|exact PO].
    enough (ls = map getline (pieces content)) as -> by exact U.
    pose proof (pieces_free content) as F. clear U. induction Hc as [|x y l1 l2 H H2 IH]; [reflexivity|].
    inversion F; subst. cbn [map]. f_equal; [now apply chomped_fun|now apply IH].
  - intros ->. exists (pieces content), (map getline (pieces content)). split; [apply lines_pieces|]. split.
    + pose proof (pieces_free content) as F. induction F as [|x l H F IH]; constructor; [now apply getline_chomped|exact IH].
    + now apply used_filter.
Qed.

(* --- the second pass --- *)
Section Loop.
Context {V : Type}.
Variable o : input_format.
Variable args : list (arg V).

Lemma read_filter ls : forall st, ofold (read_line V o args) ls st = ofold (read_line V o args) (filter (data_line o) ls) st.
Proof.
  induction ls as [|l ls IH]; intros [[i k] sto]; [reflexivity|]. cbn [filter]. destruct (data_line o l) eqn:E.
  - cbn [ofold]. destruct (read_line V o args (i, k, sto) l); cbn [obind]; auto.
  - cbn [ofold]. unfold read_line at 1. rewrite E. cbn [obind]. apply IH.
Qed.
Lemma read_skip us : Forall (fun l => data_line o l = true) us -> forall k sto,
  ofold (read_line V o args) us (0, k, sto) =
  if (N.of_nat (length us) <=? k)%N then Ok (0, (k - N.of_nat (length us))%N, sto)
  else ofold (read_line V o args) (skipn (N.to_nat k) us) (0, 0%N, sto).
Proof.
  induction 1 as [|l us H F IH]; intros k sto.
  - cbn [length N.of_nat ofold]. destruct (N.leb_spec 0 k); [|lia]. now rewrite N.sub_0_r.
  - destruct (N.eq_dec k 0) as [->|Nk].
    + destruct (N.leb_spec (N.of_nat (length (l :: us))) 0) as [X|_]; [cbn in X; lia|]. reflexivity.
    + cbn [ofold]. unfold read_line at 1. rewrite H. destruct (N.ltb_spec 0 k) as [_|X]; [|lia].
      cbn [obind]. rewrite IH. cbn [length]. rewrite Nnat.Nat2N.inj_succ.
      destruct (N.leb_spec (N.of_nat (length us)) (N.pred k)) as [X|X];
        destruct (N.leb_spec (N.succ (N.of_nat (length us))) k) as [Y|Y]; try lia.
      * do 3 f_equal. lia.
      * replace (N.to_nat k) with (S (N.to_nat (N.pred k))) by lia. reflexivity.
Qed.

Definition start (l : str) : splitter := mk_spl l (Some 0) (in_delim o) (delim_single o).
Lemma read_line_row i (sto : list (list (list V))) l r : data_line o l = true ->
  ofold (do_call V) (map (to_call i) (layout 0 args)) (start l, sto) = r ->
  read_line V o args (i, 0%N, sto) l = ('(_, sto') <- r ;; Ok (S i, 0%N, sto')).
Proof. intros D <-. unfold read_line. rewrite D. cbn [N.ltb N.compare]. now rewrite row_calls_layout. Qed.
(* l gives the fields fs to every destination *)
Definition gives (l : str) (fs : list str) : Prop := feed (length (layout 0 args)) (start l) fs.

Lemma rows_good n ls fss : Forall2 gives ls fss -> Forall (row_ok args) fss ->
  Forall (fun l => data_line o l = true) ls -> forall i0 sto, sized args n sto -> i0 + length ls <= n ->
  exists sto', ofold (read_line V o args) ls (i0, 0%N, sto) = Ok (i0 + length ls, 0%N, sto') /\ sized args n sto' /\
   (forall k fs, nth_error fss k = Some fs -> row_stored args sto' (i0 + k) fs) /\
   (forall i d, i < i0 -> In (Some d) (layout 0 args) ->
      elem sto' (d_arg d) (d_col d) (i * d_mul d + d_off d) = elem sto (d_arg d) (d_col d) (i * d_mul d + d_off d)).
Proof.
  induction 1 as [|l fs ls fss G GG IH]; intros RO DL i0 sto Sz Le.
  - exists sto. cbn. rewrite Nat.add_0_r. repeat split; auto. intros [|k] fs H; discriminate H.
  - inversion RO as [|? ? RO1 RO2]; subst. inversion DL as [|? ? DL1 DL2]; subst. cbn [length] in Le.
    destruct (row_good i0 (layout 0 args) (start l) sto fs G RO1) as (s' & sto1 & E1 & Sh & St & Ot).
    + apply (sized_inb args n); [exact Sz|lia].
    + apply layout_nodup.
    + assert (Sz1 : sized args n sto1) by (eapply sized_shape; eauto).
      destruct (IH RO2 DL2 (S i0) sto1 Sz1) as (sto' & E2 & Sz2 & St2 & Ot2); [lia|].
      exists sto'. cbn [ofold]. rewrite (read_line_row _ _ _ _ DL1 E1). cbn [obind length].
      split; [etransitivity; [exact E2|]; do 3 f_equal; lia|]. split; [exact Sz2|]. split.
      * intros [|k] fs' H.
        -- injection H as <-. rewrite Nat.add_0_r. intros j d w v H1 H2 H3. rewrite Ot2; [|lia|now apply nth_error_In in H1].
           now apply (St j d w v).
        -- replace (i0 + S k) with (S i0 + k) by lia. now apply St2.
      * intros i d Li Id. rewrite Ot2 by (auto; lia). apply Ot. intro I.
        apply (rows_apart args n sto i i0 Sz) with (x := addr i d); [lia|lia|lia| |exact I].
        apply in_map, dests_In, Id.
Qed.

Lemma row_ok_dec fs : {row_ok args fs} + {~ row_ok args fs}.
Proof. apply parsed_dec. Qed.

Lemma rows_bad n ls fss : Forall2 gives ls fss -> ~ Forall (row_ok args) fss ->
  Forall (fun l => data_line o l = true) ls -> forall i0 sto, sized args n sto -> i0 + length ls <= n ->
  ofold (read_line V o args) ls (i0, 0%N, sto) = CheckFail.
Proof.
  induction 1 as [|l fs ls fss G GG IH]; intros RO DL i0 sto Sz Le; [now elim RO|].
  inversion DL as [|? ? DL1 DL2]; subst. cbn [length] in Le.
  cbn [ofold].
  assert (B : Forall (inb sto i0) (dests (layout 0 args))) by (apply (sized_inb args n); [exact Sz|lia]).
  destruct (row_ok_dec fs) as [R|R].
  - destruct (row_good i0 (layout 0 args) (start l) sto fs G R B (layout_nodup i0 args 0)) as (s' & sto1 & E1 & Sh & _ & _).
    rewrite (read_line_row _ _ _ _ DL1 E1). cbn [obind]. apply IH; auto.
    + eapply sized_shape; eauto.
    + lia.
  - now rewrite (read_line_row _ _ _ _ DL1 (row_bad i0 (layout 0 args) (start l) sto fs G R B)).
Qed.

(* every used line gives some fields *)
Lemma gives_ex l : data_line o l = true -> exists fs, gives l fs.
Proof.
  intro D. unfold gives, start. destruct (delim_single o) eqn:Sg.
  - destruct (in_delim o) as [|c0 p0] eqn:Ed.
    { eexists. apply feed_stuck; cbn; eauto. }
    rewrite <- Ed. assert (Nd : in_delim o <> []) by (rewrite Ed; discriminate).
    destruct (split_ok l (in_delim o) Nd) as (w & _ & C). destruct w as [|[|c w] t].
    + now apply cut_nonempty in C.
    + destruct (cut_step _ _ _ Nd C) as [(_ & E)|(a & b & t' & E & E' & _)].
      * injection E as <- ->. discriminate D.
      * injection E' as <- ->. eexists. apply feed_stuck; cbn; eauto.
    + eexists. apply feed_rem; cbn; [easy|]. apply (rem_start (mk_in false [] 0 (in_delim o) true)). cbn. split; eauto.
  - destruct (words_ex (in_delim o) l) as (ws & W). exists ws. apply feed_rem; cbn; [discriminate|].
    apply (rem_start (mk_in false [] 0 (in_delim o) false)). exact W.
Qed.

Lemma gives_fields l fs : delim_ok o -> fields_of o l fs -> gives l fs.
Proof.
  intros D F. apply feed_rem; cbn; [exact D|]. now apply rem_start.
Qed.
End Loop.
