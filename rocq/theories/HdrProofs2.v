(* Proofs about parsed FITS headers: continued strings, and the keywords on the astrometry. *)
From Coq Require Import Ascii String Lia.
From Verif Require Import Base StrModel StrSpec StrProofs StrProofs3 KeySpec KeyProofs HdrModel HdrSpec HdrProofs.
Local Open Scope list_scope.
Local Open Scope nat_scope.
Notation length := List.length.
Notation concat := List.concat.

Lemma back_last u (c : ascii) : back (u ++ [c]) = Ok c.
Proof. unfold back. destruct (u ++ [c]) eqn:E; [destruct u; discriminate|]. rewrite <- E, last_last. reflexivity. Qed.
Lemma join_ok u u' : u <> [] -> joint u u' ->
  (z <- back u ;; (if Ascii.eqb z "&"%char then substr u 0 (length u - 1) else Ok u)) = Ok u'.
Proof.
  intros N J. destruct (exists_last N) as (w & c & E). rewrite E at 1. rewrite back_last. cbn [obind].
  destruct (Ascii.eqb_spec c "&"%char) as [->|Nc].
  - destruct J as [J|[_ J]]; [|destruct (J w E)]. rewrite J. rewrite app_length. cbn [List.length]. rewrite Nat.add_sub. apply substr_head.
  - destruct J as [J|[-> _]]; [|reflexivity]. rewrite E in J. apply app_inj_tail in J. destruct J as [_ J]. contradiction.
Qed.
Lemma join_total u : exists u', joint u u'.
Proof.
  destruct u as [|c u]; [exists []; right; split; [reflexivity|]; intros [|? ?] E; discriminate|].
  destruct (@exists_last _ (c :: u)) as (w & d & E); [discriminate|]. destruct (Ascii.eqb_spec d "&"%char) as [->|Nd].
  - exists w. left. exact E.
  - exists (c :: u). right. split; [reflexivity|]. intros w' E'. rewrite E in E'. apply app_inj_tail in E'. destruct E' as [_ E']. contradiction.
Qed.
Lemma obind_assoc {A B C} (m : outcome A) (f : A -> outcome B) (g : B -> outcome C) : obind (obind m f) g = obind m (fun x => obind (f x) g).
Proof. destruct m; reflexivity. Qed.
Lemma continue_ok k line u u' d d' s w com : value k = ["'"%char] ++ u ++ ["'"%char] -> u <> [] -> joint u u' ->
  10 <= length line -> stripped (skipn 10 line) (["'"%char] ++ s ++ ["'"%char] ++ w) -> ~ In "'"%char s ->
  stripped s d -> d <> [] -> joint d d' -> stripped w com ->
  continue_ k line = Ok (Keyword (key k) (["'"%char] ++ u' ++ d' ++ ["'"%char]) com (novalue k)).
Proof.
  intros V Nu Ju Ll R Ns Sd Nd Jd Sw. unfold continue_.
  assert (E : substr_end line 10 = Ok (skipn 10 line)) by (unfold substr_end; destruct (Nat.leb_spec 10 (length line)); [reflexivity|lia]).
  rewrite E. cbn [obind]. rewrite (trim_eq _ _ R). cbn [obind app]. change (Ascii.eqb "'"%char quote) with true. cbn iota.
  change ("'"%char :: s ++ "'"%char :: w) with (["'"%char] ++ s ++ ["'"%char] ++ w). rewrite (second_at s w Ns).
  cbn [Nat.sub]. rewrite Nat.sub_0_r. rewrite (substr_mid ["'"%char] s (["'"%char] ++ w) : substr (["'"%char] ++ s ++ ["'"%char] ++ w) 1 (length s) = _). cbn [obind].
  rewrite (trim_eq _ _ Sd). cbn [obind].
  pose proof (substr_tail (["'"%char] ++ s ++ ["'"%char]) w) as E2.
  replace (length (["'"%char] ++ s ++ ["'"%char])) with (S (length s) + 1) in E2 by (rewrite !app_length; cbn; lia).
  rewrite <- !app_assoc in E2. rewrite E2. cbn [obind]. rewrite (trim_eq _ _ Sw). cbn [obind].
  assert (Ev : match value k with
     | c :: _ => if Ascii.eqb c quote then substr (value k) 1 (if length (value k) <? 2 then length (value k) else length (value k) - 2) else Ok (value k)
     | [] => Ok [] end = Ok u).
  { rewrite V. cbn [app]. change (Ascii.eqb "'"%char quote) with true. cbn iota. change ("'"%char :: u ++ ["'"%char]) with (["'"%char] ++ u ++ ["'"%char]).
    replace (if _ <? 2 then _ else _) with (length u); [exact (substr_mid ["'"%char] u ["'"%char])|].
    rewrite !app_length. cbn [List.length]. destruct (Nat.ltb_spec (1 + (length u + 1)) 2); lia. }
  rewrite Ev. cbn [obind]. rewrite <- obind_assoc. rewrite (join_ok u u' Nu Ju). cbn [obind]. rewrite <- obind_assoc. rewrite (join_ok d d' Nd Jd). reflexivity.
Qed.

(* a card that goes on with the string of the last keyword *)
Lemma read_more keys k k' line : starts_with continuation line -> continue_ k line = Ok k' -> read_line (keys ++ [k]) line = Ok (keys ++ [k']).
Proof.
  intros C E. unfold read_line. destruct (starts (lit "HISTORY ") line) eqn:Eh.
  - apply starts_iff in Eh. destruct C as (r & ->), Eh as (r' & Eh). discriminate Eh.
  - rewrite (proj2 (starts_iff (lit "CONTINUE ") line) C). rewrite rev_app_distr. cbn [rev app]. rewrite E. cbn [obind]. rewrite rev_involutive. reflexivity.
Qed.
Lemma ofold_app {A S} (f : S -> A -> outcome S) l1 l2 s : ofold f (l1 ++ l2) s = (s <- ofold f l1 s ;; ofold f l2 s).
Proof. revert s. induction l1 as [|x l IH]; intros s; cbn [ofold app obind]; [reflexivity|]. destruct (f s x); cbn [obind]; auto. Qed.
Lemma parse_app l l' : cards (l ++ l') -> parse_header (concat (l ++ l')) = (ks <- parse_header (concat l) ;; ofold read_line l' ks).
Proof.
  intros C. unfold parse_header. rewrite (cut_cards _ C). apply cards_app in C. destruct C as [C _]. rewrite (cut_cards _ C). cbn [obind]. apply ofold_app.
Qed.

(* the keywords on the astrometry *)
Fixpoint hits (ws : list (list ascii)) (c : list ascii) : nat :=
  match ws with [] => 0 | w :: ws => (if starts w c then 1 else 0) + hits ws c end.
Lemma begins_starts c w : begins_with c w = Ok (starts w c).
Proof.
  destruct (begins_with_ok c w) as (r & -> & R). f_equal. destruct r, (starts w c) eqn:E; try reflexivity.
  - apply starts_false in E. destruct E. apply R. reflexivity.
  - apply starts_iff in E. apply R in E. discriminate.
Qed.
Lemma hits_ok c : forall ws acc, ofold (fun nkeys wk => b <- begins_with c wk ;; Ok (if b : bool then nkeys ++ [c] else nkeys)) ws acc = Ok (acc ++ repeat c (hits ws c)).
Proof.
  induction ws as [|w ws IH]; intros acc; cbn [ofold hits repeat].
  - rewrite app_nil_r. reflexivity.
  - rewrite begins_starts. cbn [obind]. rewrite IH. destruct (starts w c); cbn [Nat.add repeat]; [rewrite <- app_assoc|]; reflexivity.
Qed.
Lemma filter_hits l : cards l -> filter_wcs (concat l) = Ok (concat (flat_map (fun c => repeat c (hits wcs_keywords c)) l)).
Proof.
  intros C. unfold filter_wcs. rewrite (cut_cards _ C). cbn [obind].
  assert (G : forall l acc, ofold (fun nkeys k => ofold (fun nkeys wk => b <- begins_with k wk ;; Ok (if b : bool then nkeys ++ [k] else nkeys)) wcs_keywords nkeys) l acc
    = Ok (acc ++ flat_map (fun c => repeat c (hits wcs_keywords c)) l)).
  { clear l C. induction l as [|c l IH]; intros acc; cbn [ofold flat_map]; [rewrite app_nil_r; reflexivity|].
    rewrite hits_ok. cbn [obind]. rewrite IH, app_assoc. reflexivity. }
  rewrite (G l []). cbn [obind app]. rewrite collapse_concat. reflexivity.
Qed.
Lemma hits_app a b c : hits (a ++ b) c = hits a c + hits b c.
Proof. induction a as [|w a IH]; cbn [hits app]; [reflexivity|]. rewrite IH. lia. Qed.
Lemma hits_kept ws c : 0 < hits ws c <-> exists p, In p ws /\ starts_with p c.
Proof.
  induction ws as [|w ws IH]; cbn [hits].
  - split; [lia|]. intros (p & [] & _).
  - destruct (starts w c) eqn:E.
    + split; [|lia]. intros _. exists w. split; [left; reflexivity|apply starts_iff, E].
    + rewrite Nat.add_0_l, IH. split; intros (p & I & S).
      * exists p. split; [right; exact I|exact S].
      * destruct I as [<-|I]; [apply starts_iff in S; congruence|]. exists p. auto.
Qed.
(* no two of a list of words begin with each other *)
Fixpoint apart (ws : list (list ascii)) : bool :=
  match ws with [] => true | w :: ws => forallb (fun v => negb (starts w v) && negb (starts v w)) ws && apart ws end.
Lemma starts_comp p q (s : list ascii) : starts_with p s -> starts_with q s -> starts_with p q \/ starts_with q p.
Proof.
  intros (r & ->) (r' & E). apply app_eq_app in E. destruct E as (l & [(-> & _)|(-> & _)]); [right|left]; exists l; reflexivity.
Qed.
Lemma apart_hits ws c : apart ws = true -> hits ws c <= 1.
Proof.
  induction ws as [|w ws IH]; cbn [hits apart]; intros H; [lia|]. apply andb_prop in H. destruct H as [H1 H2]. specialize (IH H2).
  destruct (starts w c) eqn:E; [|lia]. destruct (Nat.eq_dec (hits ws c) 0) as [->|N]; [lia|].
  assert (P : 0 < hits ws c) by lia. apply hits_kept in P. destruct P as (p & I & S). rewrite forallb_forall in H1. specialize (H1 p I).
  apply andb_prop in H1. destruct H1 as [H3 H4]. apply starts_iff in E. destruct (starts_comp _ _ _ E S) as [K|K]; apply starts_iff in K; rewrite K in *; discriminate.
Qed.
Definition radecsys : list ascii := ["R";"A";"D";"E";"C";"S";"Y";"S"]%char.
Definition secpix : list ascii := ["S";"E";"C";"P";"I";"X"]%char.
Lemma hits_wcs c : hits wcs_keywords c = hits astrometric c + (if starts radecsys c then 1 else 0) + (if starts secpix c then 1 else 0).
Proof.
  unfold wcs_keywords, astrometric, radecsys, secpix. cbn [map lit list_ascii_of_string hits]. lia.
Qed.
Lemma astro_one c : hits astrometric c <= 1. Proof. apply apart_hits. vm_compute. reflexivity. Qed.
Lemma count_kept c : (~ kept c /\ ~ doubled c /\ hits wcs_keywords c = 0) \/ (kept c /\ ~ doubled c /\ hits wcs_keywords c = 1) \/ (kept c /\ doubled c /\ hits wcs_keywords c = 2).
Proof.
  rewrite hits_wcs. pose proof (astro_one c) as O. assert (K : 0 < hits astrometric c <-> kept c) by apply hits_kept.
  assert (Dr : starts_with radecsys c -> starts_with ["R"; "A"]%char c) by (intros (r & ->); eexists; reflexivity).
  assert (I1 : In ["R"; "A"]%char astrometric) by (left; reflexivity). assert (I2 : In secpix astrometric) by (do 4 right; left; reflexivity).
  destruct (starts radecsys c) eqn:E1.
  - apply starts_iff in E1. destruct (starts secpix c) eqn:E2.
    + apply starts_iff in E2. destruct (starts_comp _ _ _ E1 E2) as [(r & Er)|(r & Er)]; discriminate.
    + right. right. assert (kept c) by (exists ["R"; "A"]%char; auto). split; [assumption|]. split; [left; exact E1|]. apply K in H. lia.
  - destruct (starts secpix c) eqn:E2.
    + apply starts_iff in E2. right. right. assert (kept c) by (exists secpix; auto). split; [assumption|]. split; [right; exact E2|]. apply K in H. lia.
    + apply starts_false in E1, E2. assert (Nd : ~ doubled c) by (intros [D|D]; auto).
      destruct (Nat.eq_dec (hits astrometric c) 0) as [Z|Z]; [left|right; left]; (split; [|split; [exact Nd|lia]]); [intros Kc; apply K in Kc; lia|apply K; lia].
Qed.
Lemma filtered_ok l : filtered l (flat_map (fun c => repeat c (hits wcs_keywords c)) l).
Proof.
  induction l as [|c l IH]; cbn [flat_map]; [constructor|].
  destruct (count_kept c) as [(Nk & Nd & ->)|[(Kc & Nd & ->)|(Kc & D & ->)]]; cbn [repeat app]; constructor; assumption.
Qed.
Lemma doubled_kept c : doubled c -> kept c.
Proof. intros D. destruct (count_kept c) as [(Nk & Nd & _)|[(Kc & Nd & _)|(Kc & _)]]; [contradiction|contradiction|exact Kc]. Qed.
Lemma filtered_fun l l' l'' : filtered l l' -> filtered l l'' -> l' = l''.
Proof.
  intros F. revert l''. induction F; intros l'' G; inversion G; subst; try (exfalso; now auto using doubled_kept); try reflexivity.
  - auto.
  - f_equal. auto.
  - f_equal. f_equal. auto.
Qed.
Lemma filtered_in l l' : filtered l l' -> forall c, In c l' <-> In c l /\ kept c.
Proof.
  intros F c. induction F as [|d l l' Nk F IH|d l l' Kc Nd F IH|d l l' D F IH]; cbn [In].
  - tauto.
  - rewrite IH. split; [tauto|]. intros [[<-|I] K]; tauto.
  - rewrite IH. split; [intros [<-|[I K]]; tauto|tauto].
  - rewrite IH. pose proof (doubled_kept _ D). split; [intros [<-|[<-|[I K]]]; tauto|tauto].
Qed.
(* the name of a card that does not begin with a blank *)
Lemma kept_named c k : named c k -> (forall x u, c = x :: u -> ~ In x white) -> (kept c <-> kept k).
Proof.
  intros (a & b & -> & N & x & y & -> & X & Y & B) H.
  assert (x = []) as ->.
  { destruct x as [|z x]; [reflexivity|]. exfalso. eapply H; [cbn [app]; reflexivity|]. apply X. left. reflexivity. }
  cbn [app] in *. split; intros (p & I & S).
  - exists p. split; [exact I|]. rewrite <- app_assoc in S. destruct (starts_app _ _ _ S) as [S'|(q & Nq & -> & S')]; [exact S'|]. exfalso.
    assert (Q : forall z, In z q -> ~ In z white /\ z <> "="%char).
    { intros z J. assert (W : forallb (fun p => forallb (fun z => negb (has (white ++ ["="%char]) z)) p) astrometric = true) by (vm_compute; reflexivity).
      rewrite forallb_forall in W. specialize (W _ I). rewrite forallb_forall in W. specialize (W z). rewrite in_app_iff in W. specialize (W (or_intror J)).
      apply Bool.negb_true_iff, has_false in W. rewrite in_app_iff in W. cbn [In] in W. split; [tauto|]. intros ->. tauto. }
    destruct q as [|z q]; [apply Nq; reflexivity|]. destruct (Q z (or_introl eq_refl)) as [Q1 Q2]. destruct S' as (r & S').
    destruct y as [|w y]; cbn [app] in S'; injection S' as <- _; [apply Q2; reflexivity|]. apply Q1, Y. left. reflexivity.
  - exists p. split; [exact I|]. rewrite <- app_assoc. apply starts_more, S.
Qed.
Lemma lookup_filtered l l' k o : filtered l l' -> (forall c x u, In c l -> c = x :: u -> ~ In x white) -> kept k -> lookup l k o -> lookup l' k o.
Proof.
  intros F H K L. destruct o as [t|]; cbn [lookup] in *.
  - destruct L as (p & c & q & (E & Nc & Np) & Vt).
    revert p E Np. induction F as [|d l l' Nk F IH|d l l' Kc Nd F IH|d l l' D F IH]; intros p E Np.
    + destruct p; discriminate.
    + destruct p as [|e p]; cbn [app] in E; injection E as -> E.
      * destruct Nk. apply (kept_named _ k Nc); [intros x u Ex; eapply H; [left; reflexivity|exact Ex]|exact K].
      * apply (IH ltac:(intros; eapply H; [right|]; eauto) p E). intros d I. apply Np. right. exact I.
    + destruct p as [|e p]; cbn [app] in E; injection E as -> E.
      * exists [], c, l'. split; [|exact Vt]. split; [reflexivity|]. split; [exact Nc|intros ? []].
      * destruct (IH ltac:(intros; eapply H; [right|]; eauto) p E) as (p' & c' & q' & (E' & N' & Np') & V'); [intros d I; apply Np; right; exact I|].
        exists (e :: p'), c', q'. split; [|exact V']. split; [rewrite E'; reflexivity|]. split; [exact N'|]. intros d [<-|I]; [apply Np; left; reflexivity|auto].
    + destruct p as [|e p]; cbn [app] in E; injection E as -> E.
      * exists [], c, (c :: l'). split; [|exact Vt]. split; [reflexivity|]. split; [exact Nc|intros ? []].
      * destruct (IH ltac:(intros; eapply H; [right|]; eauto) p E) as (p' & c' & q' & (E' & N' & Np') & V'); [intros d I; apply Np; right; exact I|].
        exists (e :: e :: p'), c', q'. split; [|exact V']. split; [rewrite E'; reflexivity|]. split; [exact N'|].
        intros d [<-|[<-|I]]; [apply Np; left; reflexivity|apply Np; left; reflexivity|auto].
  - intros d I. apply (filtered_in _ _ F) in I. apply L, I.
Qed.
Lemma lookup_dropped l l' k : filtered l l' -> (forall c x u, In c l -> c = x :: u -> ~ In x white) -> ~ kept k -> lookup l' k None.
Proof.
  intros F H K c I N. apply (filtered_in _ _ F) in I. destruct I as [I Kc]. apply K. apply (kept_named c k N); [|exact Kc]. intros x u E. eapply H; eauto.
Qed.
