(* Lemmas on DS9 region files. *)
From Coq Require Import Ascii String QArith.
From Verif Require Import Base VecProofs StrModel StrSpec StrProofs StrProofs2 StrProofs3 StrProperties DsregModel DsregSpec.
Local Open Scope nat_scope.
Local Open Scope list_scope.

Lemma first_out (ch a a' : str) c c' x x' : made_of ch a -> made_of ch a' -> ~ In c ch -> ~ In c' ch ->
  a ++ c :: x = a' ++ c' :: x' -> a = a' /\ c = c' /\ x = x'.
Proof.
  revert a'. induction a as [|h a IH]; intros [|h' a'] A A' C C' E; cbn in E; injection E as E1 E2.
  - auto.
  - subst c. exfalso. apply C, A'. now left.
  - subst h. exfalso. apply C', A. now left.
  - subst h'. destruct (IH a') as (-> & -> & ->); auto; [intros y I; apply A; now right|intros y I; apply A'; now right].
Qed.
Lemma trim_unique s m : trimmed s m -> trim s white = Ok m.
Proof.
  intros (a & b & -> & A & B & C). destruct (trim_ok (a ++ m ++ b) white) as (m' & E & (a' & b' & S & A' & B') & C').
  rewrite E. f_equal. change blank with white in *.
  destruct C as [->|((c & t & E1 & N1) & (u & d & E2 & N2))].
  - destruct C' as [->|((c' & t' & -> & N') & _)]; [reflexivity|]. exfalso. apply N'.
    assert (M : made_of white (a ++ b)) by (intros x I; apply in_app_or in I; destruct I; auto).
    cbn [app] in S. rewrite S in M. apply M. apply in_or_app. right. left. reflexivity.
  - destruct C' as [->|((c' & t' & E1' & N1') & (u' & d' & E2' & N2'))].
    { exfalso. apply N1. assert (M : made_of white (a' ++ b')) by (intros x I; apply in_app_or in I; destruct I; auto).
      cbn [app] in S. rewrite <- S in M. apply M. apply in_or_app. right. rewrite E1. left. reflexivity. }
    assert (S1 := S). rewrite E1, E1' in S1. cbn [app] in S1. apply (first_out white) in S1; auto. destruct S1 as (-> & _ & _).
    apply app_inv_head in S. rewrite E2, E2' in S. apply (f_equal (@rev _)) in S. rewrite !rev_app_distr in S. cbn [rev app] in S.
    apply (first_out white) in S; auto.
    + destruct S as (_ & -> & S). apply (f_equal (@rev _)) in S. rewrite !rev_involutive in S. subst u'. congruence.
    + intros x I. apply B. now apply in_rev.
    + intros x I. apply B'. now apply in_rev.
Qed.
Lemma trimmed_inv s m : trim s white = Ok m -> trimmed s m.
Proof.
  intros E. destruct (trim_ok s white) as (m' & E' & (a & b & S & A & B) & C). assert (m' = m) by congruence. subst m'.
  exists a, b. auto.
Qed.
Lemma trimmed_all raw args : Forall2 trimmed raw args -> omapl (fun a => trim a white) raw = Ok args.
Proof.
  induction 1 as [|a m raw args H F IH]; [reflexivity|]. cbn [omapl]. rewrite (trim_unique _ _ H). cbn [obind]. rewrite IH. reflexivity.
Qed.
(* splitting at commas *)
Lemma split_commas raw : raw <> [] -> (forall a, In a raw -> ~ In ","%char a) -> split (joined raw [","%char]) [","%char] = Ok raw.
Proof.
  intros N H. rewrite <- collapse_sep_joined. apply C28_split_collapse; [discriminate|exact N|].
  clear N. induction raw as [|a [|b raw] IH]; intros i O.
  - destruct O as (u & v & E & _). destruct u; discriminate.
  - exfalso. cbn [joined] in O. destruct O as (u & v & E & _). apply (H a (or_introl eq_refl)). rewrite E. apply in_or_app. right. left. reflexivity.
  - change (joined (a :: b :: raw) [","%char]) with (a ++ [","%char] ++ joined (b :: raw) [","%char]) in O.
    change (joints (a :: b :: raw) [","%char]) with (List.length a :: map (fun i => List.length a + 1 + i) (joints (b :: raw) [","%char])).
    assert (Ha := H a (or_introl eq_refl)). specialize (IH (fun x I => H x (or_intror I))).
    revert O IH. generalize (joined (b :: raw) [","%char]) (joints (b :: raw) [","%char]). intros s js (u & v & E & L) IH. clear H.
    assert (G : forall a u, ~ In ","%char a -> a ++ [","%char] ++ s = u ++ [","%char] ++ v -> u = a \/ exists u', u = a ++ [","%char] ++ u' /\ s = u' ++ [","%char] ++ v).
    { clear. induction a as [|h a IHa]; intros [|h' u] Ha E; cbn in E.
      - left. reflexivity.
      - injection E as <- E2. right. exists u. auto.
      - injection E as E1 E2. exfalso. subst h. apply Ha. now left.
      - injection E as <- E2. destruct (IHa u) as [->|(u' & -> & ->)]; auto. intros I; apply Ha; now right. right. exists u'. auto. }
    destruct (G a u Ha E) as [->|(u' & -> & ->)]; [left; exact L|]. right. apply in_map_iff. exists (List.length u'). split.
    + rewrite <- L, !app_length. cbn. lia.
    + apply IH. exists u', v. auto.
Qed.
Lemma str_eqb_true a b : str_eqb a b = true <-> a = b.
Proof. unfold str_eqb. destruct (list_eq_dec ascii_dec a b); split; congruence. Qed.
Lemma str_eqb_refl a : str_eqb a a = true.
Proof. now apply str_eqb_true. Qed.

(* the first character of a set *)
Lemma find_first_at (c : ascii) u a b : ~ In c a -> find_first (has [c]) (u ++ a ++ c :: b) (Some (List.length u)) = Some (List.length u + List.length a).
Proof.
  intros N. unfold find_first. rewrite skipn_len_app. rewrite first_at_skip.
  - cbn [first_at has existsb]. rewrite Ascii.eqb_refl. reflexivity.
  - intros x I. apply has_false. intros [<-|[]]. contradiction.
Qed.
Lemma find_first_none (c : ascii) u a : ~ In c a -> find_first (has [c]) (u ++ a) (Some (List.length u)) = None.
Proof.
  intros N. unfold find_first. rewrite skipn_len_app. rewrite <- (app_nil_r a), first_at_skip; [reflexivity|].
  intros x I. apply has_false. intros [<-|[]]. contradiction.
Qed.
Lemma has_iff (c : ascii) s : (match find_first (has [c]) s (Some 0) with Some _ => True | None => False end) <-> In c s.
Proof.
  unfold find_first. cbn [skipn]. pose proof (first_at_spec (has [c]) s 0) as H. destruct (first_at (has [c]) s 0).
  - destruct H as (a & d & b & -> & _ & P & _). apply has_In in P. destruct P as [<-|[]]. split; [intros _; apply in_or_app; right; now left|auto].
  - split; [tauto|]. intros I. specialize (H c I). apply has_false in H. apply H. now left.
Qed.
Lemma upto_ok u v b : free_of blank v -> (b = [] \/ exists c t, b = c :: t /\ (c = " " \/ c = "009")%char) ->
  upto (u ++ v ++ b) (List.length u) = Ok v.
Proof.
  intros F B. unfold upto, find_first. rewrite skipn_len_app, first_at_skip.
  - destruct B as [->|(c & t & -> & K)].
    + cbn [first_at]. rewrite app_nil_r. apply substr_tail.
    + assert (has sep2 c = true) as H by (destruct K as [-> | ->]; reflexivity). cbn [first_at]. rewrite H.
      replace (List.length u + List.length v - List.length u) with (List.length v) by lia. apply substr_mid.
  - intros x I. apply has_false. intros J. apply (F x I). destruct J as [<-|[<-|[]]]; cbn; auto.
Qed.
Lemma free_core s : s <> [] -> free_of blank s -> core blank s.
Proof.
  intros N F. right. split.
  - destruct s as [|c t]; [congruence|]. exists c, t. split; [reflexivity|]. apply F. now left.
  - destruct (exists_last N) as (t & c & ->). exists t, c. split; [reflexivity|]. apply F. apply in_or_app. right. now left.
Qed.
Lemma trim_free s : free_of blank s -> trim s white = Ok s.
Proof.
  intros F. destruct s as [|c t]; [reflexivity|]. apply trim_core. apply free_core; [discriminate|exact F].
Qed.
Lemma key_ok key u opts o : given key opts o -> key_value key (u ++ opts) (List.length u) = Ok o.
Proof.
  intros G. unfold key_value. pose proof (sfind_spec key u opts) as H. destruct G as [N|a v b E L F B].
  - destruct (sfind key (u ++ opts) (List.length u)) as [k|]; [|reflexivity]. destruct H as (a & b & E & _ & _). exfalso. apply N.
    exists (List.length a), a, b. auto.
  - destruct (sfind key (u ++ opts) (List.length u)) as [k|].
    + destruct H as (a' & b' & E' & -> & L').
      assert (List.length a' = List.length a).
      { apply Nat.le_antisymm; [apply L'|apply L]; [exists a, (v ++ b)|exists a', b']; auto. }
      rewrite H. replace (u ++ opts) with ((u ++ a ++ key) ++ v ++ b) by (rewrite E, <- !app_assoc; reflexivity).
      replace (List.length u + List.length a + List.length key) with (List.length (u ++ a ++ key)) by (rewrite !app_length; lia).
      rewrite upto_ok by assumption. cbn [obind]. rewrite trim_free by exact F. reflexivity.
    + exfalso. apply H. exists (List.length a), a, (v ++ b). auto.
Qed.

Section Reading.
Variable parse : str -> option Q.
Variable sex : str -> str -> outcome (option (Q * Q)).

Lemma dim_ok ph s v : size_is parse ph s v -> read_dim parse ph s = Ok (Some v).
Proof.
  unfold size_is, read_dim. destruct ph; [intros ->; reflexivity|]. intros (t & -> & E). change ["034"%char] with quote.
  destruct (ends_with_ok (t ++ quote) quote) as (b & Eb & Hb). rewrite Eb. cbn [obind]. rewrite (proj2 Hb) by (exists t; reflexivity).
  unfold erase_end. rewrite Eb, (proj2 Hb) by (exists t; reflexivity). cbn [check obind]. unfold erase. rewrite app_length. cbn [quote List.length].
  replace (List.length t + 1 - 1) with (List.length t) by lia. replace (List.length t <=? List.length t + 1) with true by (symmetry; apply Nat.leb_le; lia). cbn [obind].
  rewrite firstn_len_app, skipn_all2 by (rewrite app_length; cbn; lia). rewrite app_nil_r, E. reflexivity.
Qed.
Lemma dim_inv ph s : (exists v, size_is parse ph s v /\ read_dim parse ph s = Ok (Some v)) \/ ((forall v, ~ size_is parse ph s v) /\ read_dim parse ph s = Ok None).
Proof.
  destruct ph.
  - unfold size_is. destruct (parse s) as [v|] eqn:E.
    + left. exists v. split; [reflexivity|]. cbn. rewrite E. reflexivity.
    + right. split; [discriminate|]. cbn. rewrite E. reflexivity.
  - destruct (ends_with_ok s quote) as (b & Eb & Hb). destruct b.
    + destruct (proj1 Hb eq_refl) as (t & ->). destruct (parse t) as [v|] eqn:E.
      * left. exists v. assert (S : size_is parse false (t ++ quote) v) by (exists t; auto). split; [exact S|apply dim_ok; exact S].
      * right. split.
        -- intros v (t' & E1 & E2). apply app_inj_tail in E1. destruct E1 as (<- & _). congruence.
        -- unfold read_dim. rewrite Eb. cbn [obind]. unfold erase_end. rewrite Eb. cbn [check obind]. unfold erase. rewrite app_length. cbn [quote List.length].
           replace (List.length t + 1 - 1) with (List.length t) by lia. replace (List.length t <=? List.length t + 1) with true by (symmetry; apply Nat.leb_le; lia). cbn [obind].
           rewrite firstn_len_app, skipn_all2 by (rewrite app_length; cbn; lia). rewrite app_nil_r, E. reflexivity.
    + right. split.
      * intros v (t & -> & _). assert (false = true); [|discriminate]. apply Hb. exists t. reflexivity.
      * unfold read_dim. rewrite Eb. reflexivity.
Qed.
Lemma centre_ok ph a b x y : centre_is parse sex ph a b x y -> read_centre parse sex ph a b = Ok (Some (x, y)).
Proof.
  unfold read_centre. intros H. pose proof (has_iff ":"%char a) as K.
  destruct H as [a b x y N E1 E2|a b x y N E1 E2|a b x y I E].
  - destruct (find_first _ a _); [exfalso; apply N, K; exact I|]. cbn [obind]. rewrite E1, E2. reflexivity.
  - destruct (find_first _ a _); [exfalso; apply N, K; exact I|]. cbn [obind]. rewrite E1, E2. reflexivity.
  - destruct (find_first _ a _); [|exfalso; apply K; exact I]. rewrite E. reflexivity.
Qed.
Lemma centre_inv ph a b : (In ":"%char a -> ph = false -> exists o, sex a b = Ok o) ->
  (exists x y, centre_is parse sex ph a b x y /\ read_centre parse sex ph a b = Ok (Some (x, y))) \/
  ((forall x y, ~ centre_is parse sex ph a b x y) /\ read_centre parse sex ph a b = Ok None).
Proof.
  intros Hs. pose proof (has_iff ":"%char a) as K. unfold read_centre.
  destruct (find_first (has [":"%char]) a (Some 0)) as [n|] eqn:Ef.
  - assert (I1 : In ":"%char a) by (apply K; exact I). destruct ph.
    + right. split; [|reflexivity]. intros x y H. inversion H; subst; contradiction.
    + destruct (Hs I1 eq_refl) as (o & Eo). rewrite Eo. cbn [obind]. destruct o as [(x & y)|].
      * left. exists x, y. split; [|reflexivity]. apply centre_sex; assumption.
      * right. split; [|reflexivity]. intros x y H. inversion H; subst; [contradiction|congruence].
  - assert (N : ~ In ":"%char a) by (intros J; apply K in J; exact J). cbn [obind].
    destruct (parse a) as [x|] eqn:E1; [destruct (parse b) as [y|] eqn:E2|].
    + left. destruct ph; [exists (x - 1)%Q, (y - 1)%Q|exists x, y]; (split; [constructor; assumption|reflexivity]).
    + right. split; [|reflexivity]. intros x' y' H. inversion H; subst; congruence.
    + right. split; [|reflexivity]. intros x' y' H. inversion H; subst; congruence.
Qed.
(* the region of a line, if it has one *)
Definition sex_defined := forall a b, exists o, sex a b = Ok o.
Definition parsed ph type args : outcome (option (list Q)) :=
  match args with
  | a0 :: a1 :: _ => c <- read_centre parse sex ph a0 a1 ;; match c with None => Ok None | Some (x, y) => read_params parse ph type args x y end
  | _ => Ok None
  end.
Lemma parsed_ok ph type args p : shape parse sex ph type args p -> parsed ph type args = Ok (Some p).
Proof.
  intros H. destruct H as [a b c x y r Hc Hr|a b c d e x y w h t Hc Hw Hh Ht]; cbn [parsed]; rewrite (centre_ok _ _ _ _ _ Hc); cbn [obind]; unfold read_params.
  - change (txt "circle") with (chars "circle"). rewrite str_eqb_refl. rewrite (dim_ok _ _ _ Hr). reflexivity.
  - change (str_eqb (txt "box") (chars "circle")) with false. change (txt "box") with (chars "box"). rewrite str_eqb_refl.
    rewrite (dim_ok _ _ _ Hw). cbn [obind]. rewrite (dim_ok _ _ _ Hh). cbn [obind]. rewrite Ht. reflexivity.
Qed.
Lemma parsed_none ph type args : (ph = false -> sex_defined) -> (forall p, ~ shape parse sex ph type args p) -> parsed ph type args = Ok None.
Proof.
  intros Hs N. destruct args as [|a [|b l]]; [reflexivity..|]. cbn [parsed].
  destruct (centre_inv ph a b) as [(x & y & Hc & E)|(_ & E)]; [intros _ ->; apply Hs; reflexivity| |rewrite E; reflexivity].
  rewrite E. cbn [obind]. unfold read_params. destruct (str_eqb type (chars "circle")) eqn:E1.
  - apply str_eqb_true in E1. subst type. destruct l as [|c [|? ?]]; [reflexivity| |reflexivity].
    destruct (dim_inv ph c) as [(r & Hr & Er)|(_ & Er)]; [exfalso; apply (N [x; y; r]); constructor; assumption|rewrite Er; reflexivity].
  - destruct (str_eqb type (chars "box")) eqn:E2; [|reflexivity]. apply str_eqb_true in E2. subst type.
    destruct l as [|c [|d [|e [|? ?]]]]; try reflexivity.
    destruct (dim_inv ph c) as [(w & Hw & Ew)|(_ & Ew)]; [|rewrite Ew; reflexivity]. rewrite Ew. cbn [obind].
    destruct (dim_inv ph d) as [(h & Hh & Eh)|(_ & Eh)]; [|rewrite Eh; reflexivity]. rewrite Eh. cbn [obind].
    destruct (parse e) as [t|] eqn:Et; [|reflexivity]. exfalso. apply (N [x; y; w; h; t]). constructor; assumption.
Qed.

Lemma options_ok tail gcolor c t u line : options tail c t -> line = u ++ tail ->
  (match find_first (has ["#"%char]) line (Some (List.length u)) with
   | None => Ok (gcolor, [])
   | Some h =>
       c <- key_value (chars "color=") line (h + 1) ;;
       t <- key_value (chars "text=") line (h + 1) ;;
       Ok (match c with Some c => c | None => gcolor end, match t with Some t => t | None => [] end)
   end) = Ok (match c with Some c => c | None => gcolor end, match t with Some t => t | None => [] end).
Proof.
  intros H ->. destruct H as [N|t0 opts c t E N Gc Gt].
  - rewrite find_first_none by exact N. reflexivity.
  - rewrite E, find_first_at by exact N.
    replace (u ++ t0 ++ "#"%char :: opts) with ((u ++ t0 ++ ["#"%char]) ++ opts) by (rewrite <- !app_assoc; reflexivity).
    replace (List.length u + List.length t0 + 1) with (List.length (u ++ t0 ++ ["#"%char])) by (rewrite !app_length; cbn; lia).
    change (chars "color=") with (txt "color="). change (chars "text=") with (txt "text=").
    rewrite (key_ok _ _ _ _ Gc), (key_ok _ _ _ _ Gt). reflexivity.
Qed.
Lemma joined_free raw (c : ascii) : c <> ","%char -> (forall a, In a raw -> ~ In c a) -> ~ In c (joined raw [","%char]).
Proof.
  intros N H. induction raw as [|a [|b raw] IH]; [intros []|apply H; left; reflexivity|].
  change (joined (a :: b :: raw) [","%char]) with (a ++ ","%char :: joined (b :: raw) [","%char]). intros I. apply in_app_or in I. destruct I as [I|[I|I]].
  - exact (H a (or_introl eq_refl) I).
  - congruence.
  - apply IH; [intros x J; apply H; right; exact J|exact I].
Qed.

Lemma line_ok g ph regs line type args tail c t : region_line line type args tail -> options tail c t ->
  read_line parse sex (g, ph, regs) line =
    (p <- parsed ph type args ;;
     Ok (match p with
         | None => (g, ph, regs)
         | Some p => (g, ph, regs ++ [Region type (match c with Some c => c | None => g end) (match t with Some t => t | None => [] end) ph p])
         end)).
Proof.
  intros (tp & raw & E & T & F & Nr & Np & Hr & (c0 & t0 & Hc & Nc) & Ng) O.
  unfold read_line. destruct (trim_ok line white) as (m & Em & (a & b & Sp & A & B) & C). rewrite Em. cbn [obind].
  assert (M : exists m', m = c0 :: m').
  { destruct T as (a' & b' & Et & A' & B' & C'). subst tp.
    destruct m as [|d m].
    - exfalso. assert (M : made_of white line) by (rewrite Sp; intros x I; apply in_app_or in I; destruct I; auto).
      assert (K : In "("%char white). { apply M. rewrite E. apply in_or_app. right. now left. }
      cbn in K. intuition discriminate.
    - assert (Nd : ~ In d white). { destruct C as [C|((d' & m' & Ed & Nd) & _)]; [discriminate|]. injection Ed as <- <-. exact Nd. }
      assert (K : exists rest, line = a' ++ c0 :: rest /\ ~ In c0 white \/ line = (a' ++ b') ++ c0 :: rest /\ ~ In c0 white).
      { destruct Hc as [Hc|(Hc & Hp)].
        - rewrite Hc in *. eexists. left. rewrite E. rewrite <- !app_assoc. cbn [app]. split; [reflexivity|].
          destruct C' as [C'|((d' & m' & Ed & Nd') & _)]; [discriminate|]. injection Ed as <- <-. exact Nd'.
        - rewrite Hc, Hp in *. eexists. right. rewrite E. cbn [app]. split; [reflexivity|]. cbn. intuition discriminate. }
      destruct K as (rest & [(K & N0)|(K & N0)]); rewrite Sp in K; cbn [app] in K; apply (first_out white) in K; auto; try (destruct K as (_ & -> & _); eauto).
      intros x I. apply in_app_or in I. destruct I; auto. }
  destruct M as (m' & ->). destruct (Ascii.eqb_spec c0 "#"%char) as [->|_]; [congruence|].
  destruct (begins_with_ok line (chars "global")) as (bg & Eb & Hb). rewrite Eb. cbn [obind].
  destruct bg; [exfalso; apply Ng; apply Hb; reflexivity|].
  assert (Ef : find_first (has ["("%char]) line (Some 0) = Some (List.length tp)).
  { rewrite E. apply (find_first_at "("%char [] tp _ Np). }
  rewrite Ef. unfold read_region.
  assert (E1 : substr line 0 (List.length tp) = Ok tp) by (rewrite E; apply (substr_mid [] tp)).
  rewrite E1. cbn [obind]. rewrite (trim_unique _ _ T). cbn [obind].
  set (js := joined raw [","%char]) in *.
  assert (Nj : ~ In ")"%char js). { apply joined_free; [discriminate|]. intros x I. apply Hr. exact I. }
  assert (E2 : line = (tp ++ ["("%char]) ++ js ++ ")"%char :: tail) by (rewrite E, <- app_assoc; reflexivity).
  assert (L2 : List.length tp + 1 = List.length (tp ++ ["("%char])) by (rewrite app_length; reflexivity).
  rewrite L2. assert (E3 : find_first (has [")"%char]) line (Some (List.length (tp ++ ["("%char]))) = Some (List.length (tp ++ ["("%char]) + List.length js)).
  { rewrite E2. apply find_first_at. exact Nj. }
  rewrite E3. replace (List.length (tp ++ ["("%char]) + List.length js - List.length (tp ++ ["("%char])) with (List.length js) by lia.
  assert (E4 : substr line (List.length (tp ++ ["("%char])) (List.length js) = Ok js) by (rewrite E2; apply substr_mid).
  rewrite E4. cbn [obind]. unfold js at 1. rewrite split_commas by (try assumption; intros x I; apply Hr; exact I). cbn [obind].
  rewrite (trimmed_all _ _ F). cbn [obind].
  unfold parsed. destruct args as [|a0 [|a1 l]]; [reflexivity..|].
  destruct (read_centre parse sex ph a0 a1) as [[(x & y)|]| | | |]; cbn [obind]; try reflexivity.
  destruct (read_params parse ph type (a0 :: a1 :: l) x y) as [[p|]| | | |]; cbn [obind]; try reflexivity.
  assert (E5 : find_first (has ["#"%char]) line (Some (List.length (tp ++ ["("%char]) + List.length js)) =
               find_first (has ["#"%char]) line (Some (List.length ((tp ++ ["("%char]) ++ js ++ [")"%char])))).
  { rewrite E2. replace ((tp ++ ["("%char]) ++ js ++ ")"%char :: tail) with (((tp ++ ["("%char]) ++ js ++ [")"%char]) ++ tail) by (rewrite <- !app_assoc; reflexivity).
    unfold find_first. rewrite skipn_len_app.
    replace (((tp ++ ["("%char]) ++ js ++ [")"%char]) ++ tail) with (((tp ++ ["("%char]) ++ js) ++ ")"%char :: tail) by (rewrite <- !app_assoc; reflexivity).
    rewrite <- app_length, skipn_len_app. cbn [first_at has existsb Ascii.eqb]. rewrite !app_length. cbn [List.length].
    replace (List.length tp + 1 + (List.length js + 1)) with (S (List.length tp + 1 + List.length js)) by lia. reflexivity. }
  rewrite E5. rewrite (options_ok tail g c t ((tp ++ ["("%char]) ++ js ++ [")"%char]) line O).
  - reflexivity.
  - rewrite E2, <- !app_assoc. reflexivity.
Qed.
End Reading.
