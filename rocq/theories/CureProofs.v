(* Proofs on the correction of headers. *)
From Coq Require Import Ascii String Lia.
From Verif Require Import Base StrModel StrSpec KeySpec StrProofs HdrModel HdrSpec HdrProofs CureModel.
From Verif Require RegModel RegSpec RegProofs.
From Verif Require Import CureSpec.
Local Open Scope list_scope.
Local Open Scope nat_scope.
Import RegModel (re, Eps, Chars, Seq, Alt, Star, Plus, Opt, Text, Pattern, pattern, regex_match).
Import RegSpec (lang).
Notation core := CureSpec.core (only parsing).

(* --- languages -------------------------------------------------------------------- *)
Lemma lang_seq a b s : lang (Seq a b) s <-> exists x y, s = x ++ y /\ lang a x /\ lang b y.
Proof. split; [intros L; inversion L; subst; eauto|]. intros (x & y & -> & A & B). constructor; assumption. Qed.
Lemma lang_alt a b s : lang (Alt a b) s <-> lang a s \/ lang b s.
Proof. split; [intros L; inversion L; auto|]. intros [L|L]; [apply RegSpec.l_left|apply RegSpec.l_right]; exact L. Qed.
Lemma lang_chars f s : lang (Chars f) s <-> exists c, s = [c] /\ f c = true.
Proof. split; [intros L; inversion L; subst; eauto|]. intros (c & -> & E). constructor. exact E. Qed.
Lemma lang_eps s : lang Eps s <-> s = [].
Proof. split; [intros L; inversion L; reflexivity|]. intros ->. constructor. Qed.
Lemma lang_text t s : lang (Text t) s <-> s = lit t.
Proof.
  unfold Text. change (RegModel.lit t) with (lit t). generalize (lit t) as l. clear t. intros l. revert s. induction l as [|c l IH]; intros s; cbn [fold_right].
  - apply lang_eps.
  - rewrite lang_seq. split.
    + intros (x & y & -> & A & B). apply lang_chars in A. destruct A as (d & -> & E). apply Ascii.eqb_eq in E. subst d. apply IH in B. subst. reflexivity.
    + intros ->. exists [c], l. split; [reflexivity|]. split; [apply lang_chars; exists c; split; [reflexivity|apply Ascii.eqb_refl]|apply IH; reflexivity].
Qed.
Lemma lang_opt a s : lang (Opt a) s <-> lang a s \/ s = [].
Proof. unfold Opt. rewrite lang_alt, lang_eps. reflexivity. Qed.
Lemma star_chars f s : lang (Star (Chars f)) s <-> forall c, In c s -> f c = true.
Proof.
  split.
  - intros L. remember (Star (Chars f)) as r eqn:E. induction L as [| | | | | |a s t A _ B IH]; try discriminate E; [intros ? []|].
    injection E as ->. apply lang_chars in A. destruct A as (d & -> & F). intros c [<-|I]; [exact F|]. exact (IH eq_refl c I).
  - induction s as [|c s IH]; intros H; [constructor|]. change (c :: s) with ([c] ++ s). constructor.
    + apply lang_chars. exists c. split; [reflexivity|apply H; left; reflexivity].
    + apply IH. intros d I. apply H. right. exact I.
Qed.
Definition figures := ["0"; "1"; "2"; "3"; "4"; "5"; "6"; "7"; "8"; "9"]%char.
Lemma digit_eq c : digit c = existsb (Ascii.eqb c) figures.
Proof. destruct c as [[] [] [] [] [] [] [] []]; reflexivity. Qed.
Lemma exists_in c l : existsb (Ascii.eqb c) l = true <-> In c l.
Proof.
  rewrite existsb_exists. split; [intros (d & I & E); apply Ascii.eqb_eq in E; subst; exact I|]. intros I. exists c. split; [exact I|apply Ascii.eqb_refl].
Qed.
Lemma lang_digits s : lang digits s <-> number s.
Proof.
  unfold digits, Plus, number. rewrite lang_seq. split.
  - intros (x & y & -> & A & B). apply lang_chars in A. destruct A as (d & -> & F). split; [discriminate|].
    intros c [<-|I]; apply (exists_in _ figures); rewrite <- digit_eq; [exact F|]. apply (proj1 (star_chars digit y) B c I).
  - intros [N H]. destruct s as [|c s]; [contradiction|]. exists [c], s. split; [reflexivity|]. split.
    + apply lang_chars. exists c. split; [reflexivity|]. rewrite digit_eq. apply exists_in. apply H. left. reflexivity.
    + apply star_chars. intros d I. rewrite digit_eq. apply exists_in. apply H. right. exact I.
Qed.
Lemma lang_one t s : lang (one_of t) s <-> exists c, s = [c] /\ In c (lit t).
Proof. unfold one_of. rewrite lang_chars. split; intros (c & E & H); exists c; (split; [exact E|apply exists_in; exact H]). Qed.
Lemma whole r k : regex_match k (Pattern true r true) = true <-> lang r k.
Proof.
  rewrite RegProofs.match_ok. split.
  - intros (x & m & y & -> & L & X & Y). cbn in X, Y. rewrite (X eq_refl), (Y eq_refl), app_nil_r. exact L.
  - intros L. exists [], k, []. rewrite app_nil_r. split; [reflexivity|]. split; [exact L|split; reflexivity].
Qed.
Lemma part t s : regex_match s (Pattern false (Text t) false) = true <-> contains (lit t) s.
Proof.
  rewrite RegProofs.match_ok. split.
  - intros (x & m & y & -> & L & _). apply lang_text in L. cbn in L. subst m. exists x, y. reflexivity.
  - intros (x & y & ->). exists x, (lit t), y. split; [reflexivity|]. split; [apply lang_text; reflexivity|split; discriminate].
Qed.
Lemma unit_ok k : regex_match k unit_key = true <-> is_unit_key k.
Proof.
  unfold unit_key. rewrite whole, lang_seq. split.
  - intros (x & y & -> & A & B). apply lang_text in A. apply lang_digits in B. exists y. subst x. split; [reflexivity|exact B].
  - intros (n & -> & N). exists (lit "CUNIT"), n. split; [reflexivity|]. split; [apply lang_text; reflexivity|apply lang_digits; exact N].
Qed.
Lemma lookup_ok k : regex_match k lookup_key = true <-> is_lookup_key k.
Proof.
  unfold lookup_key. rewrite whole, lang_seq. split.
  - intros (x & y & -> & A & B). apply lang_text in A. subst x. apply lang_seq in B. destruct B as (x & z & -> & A & B).
    apply lang_one in A. destruct A as (c & -> & I). apply lang_seq in B. destruct B as (x & n & -> & A & B). apply lang_text in A. subst x.
    apply lang_digits in B. exists c, n. split; [destruct I as [<-|[<-|[]]]; auto|]. split; [reflexivity|exact B].
  - intros (c & n & C & -> & N). exists (lit "C"), ([c] ++ lit "DIS" ++ n). split; [reflexivity|]. split; [apply lang_text; reflexivity|].
    apply lang_seq. exists [c], (lit "DIS" ++ n). split; [reflexivity|]. split; [apply lang_one; exists c; split; [reflexivity|destruct C as [-> | ->]; cbn; auto]|].
    apply lang_seq. exists (lit "DIS"), n. split; [reflexivity|]. split; [apply lang_text; reflexivity|apply lang_digits; exact N].
Qed.
Lemma sip_ok k : regex_match k sip_key = true <-> is_sip_key k.
Proof.
  unfold sip_key. rewrite whole, lang_seq. split.
  - intros (x & y & -> & A & B). apply lang_one in A. destruct A as (c & -> & I). apply lang_seq in B. destruct B as (p & z & -> & A & B).
    apply lang_opt in A. rewrite lang_text in A. apply lang_seq in B. destruct B as (u & t & -> & U & B). apply lang_text in U. subst u.
    exists c, p, t. split; [destruct I as [<-|[<-|[]]]; auto|]. split; [destruct A as [-> | ->]; auto|]. split; [reflexivity|].
    apply lang_alt in B. destruct B as [B|B]; [left|right].
    + apply lang_seq in B. destruct B as (i & z & -> & A1 & B). apply lang_seq in B. destruct B as (u & j & -> & U & B). apply lang_text in U. subst u.
      exists i, j. split; [reflexivity|]. split; apply lang_digits; assumption.
    + apply lang_text in B. exact B.
  - intros (c & p & t & C & P & -> & T). exists [c], (p ++ "_"%char :: t). split; [reflexivity|].
    split; [apply lang_one; exists c; split; [reflexivity|destruct C as [-> | ->]; cbn; auto]|].
    apply lang_seq. exists p, ("_"%char :: t). split; [reflexivity|]. split; [apply lang_opt; rewrite lang_text; destruct P as [-> | ->]; auto|].
    apply lang_seq. exists (lit "_"), t. split; [reflexivity|]. split; [apply lang_text; reflexivity|]. apply lang_alt. destruct T as [(i & j & -> & I & J)| ->].
    + left. apply lang_seq. exists i, ("_"%char :: j). split; [reflexivity|]. split; [apply lang_digits, I|]. apply lang_seq. exists (lit "_"), j.
      split; [reflexivity|]. split; [apply lang_text; reflexivity|apply lang_digits, J].
    + right. apply lang_text. reflexivity.
Qed.
Lemma pq_ok a d s : lang (Seq (Text a) (one_of "PQ")) s -> lit a = [d] -> s = [d; "P"%char] \/ s = [d; "Q"%char].
Proof.
  intros L E. apply lang_seq in L. destruct L as (x & y & -> & A & B). apply lang_text in A. subst x. rewrite E. apply lang_one in B.
  destruct B as (c & -> & [<-|[<-|[]]]); auto.
Qed.
Lemma pq_in a d c : lit a = [d] -> In c ["P"; "Q"]%char -> lang (Seq (Text a) (one_of "PQ")) [d; c].
Proof. intros E I. apply lang_seq. exists [d], [c]. split; [reflexivity|]. split; [apply lang_text; symmetry; exact E|apply lang_one; exists c; split; [reflexivity|exact I]]. Qed.
Lemma distortion_ok k : regex_match k distortion_key = true <-> is_distortion_key k.
Proof.
  unfold distortion_key. rewrite whole, lang_seq. split.
  - intros (w & n & -> & A & B). apply lang_digits in B. exists w, n. split; [reflexivity|]. split; [exact B|].
    apply lang_alt in A. destruct A as [A|A].
    { left. destruct (pq_ok _ "D"%char _ A eq_refl) as [-> | ->]; cbn; auto. }
    apply lang_alt in A. destruct A as [A|A]; [apply lang_text in A; subst; left; cbn; auto|]. right.
    apply lang_seq in A. destruct A as (a & b & -> & A & E). exists a, b. split; [reflexivity|]. split.
    + apply lang_alt in A. destruct A as [A|A]; [destruct (pq_ok _ "C"%char _ A eq_refl) as [-> | ->]; cbn; auto|]. apply lang_text in A. subst. cbn. auto.
    + apply lang_alt in E. rewrite lang_alt, !lang_text in E. destruct E as [->|[-> | ->]]; cbn; auto.
  - intros (w & n & -> & N & W). exists w, n. split; [reflexivity|]. split; [|apply lang_digits, N]. apply lang_alt. destruct W as [[<-|[<-|[<-|[]]]]|(a & b & -> & A & B)].
    + left. apply pq_in; cbn; auto.
    + left. apply pq_in; cbn; auto.
    + right. apply lang_alt. left. apply lang_text. reflexivity.
    + right. apply lang_alt. right. apply lang_seq. exists a, b. split; [reflexivity|]. split.
      * apply lang_alt. destruct A as [<-|[<-|[<-|[]]]]; [left; apply pq_in; cbn; auto|left; apply pq_in; cbn; auto|right; apply lang_text; reflexivity].
      * apply lang_alt. rewrite lang_alt, !lang_text. destruct B as [<-|[<-|[<-|[]]]]; auto.
Qed.

(* --- values ----------------------------------------------------------------------- *)
Notation around := (["'"; " "]%char) (only parsing).
Lemma trim_plain v : exists t, trim v (lit "' ") = Ok t /\ plain v t.
Proof.
  destruct (trim_ok v (lit "' ")) as (m & E & (a & b & S & A & B) & C). exists m. split; [exact E|]. exists a, b. split; [exact S|]. split; [exact A|]. split; [exact B|].
  destruct C as [->|[(c & t & Ec & Nc) (u & d & Ed & Nd)]]; [split; [discriminate|intros [|? ?] ? X; discriminate X]|]. split.
  - intros c' t' X. rewrite Ec in X. injection X as <- _. exact Nc.
  - intros u' d' X. rewrite Ed in X. apply app_inj_tail in X. destruct X as [_ <-]. exact Nd.
Qed.
Section Any.
Variable cs : list ascii.
Lemma cs_prefix : forall a a' c c' x x', made_of cs a -> made_of cs a' -> ~ In c cs -> ~ In c' cs ->
  a ++ c :: x = a' ++ c' :: x' -> a = a' /\ c :: x = c' :: x'.
Proof.
  induction a as [|w a IH]; intros [|w' a'] c c' x x' A A' C C' E; cbn [app] in E.
  - auto.
  - injection E as -> _. destruct C. apply A'. left. reflexivity.
  - injection E as -> _. destruct C'. apply A. left. reflexivity.
  - injection E as -> E. destruct (IH a' c c' x x') as (-> & E'); auto; intros z Hz; [apply A|apply A']; right; exact Hz.
Qed.
Lemma core_made t : core cs t -> made_of cs t -> t = [].
Proof. intros [H _] W. destruct t as [|c u]; [reflexivity|]. destruct (H c u eq_refl). apply W. left. reflexivity. Qed.
Lemma core_fun a b t a' b' t' : made_of cs a -> made_of cs b -> core cs t -> made_of cs a' -> made_of cs b' -> core cs t' ->
  a ++ t ++ b = a' ++ t' ++ b' -> t = t'.
Proof.
  intros A B T A' B' T' E. destruct t as [|c u].
  { symmetry. apply core_made; [exact T'|]. intros c I. assert (K : In c (a ++ [] ++ b)) by (rewrite E; apply in_or_app; right; apply in_or_app; left; exact I).
    cbn [app] in K. apply in_app_or in K. destruct K; auto. }
  destruct t' as [|c' u'].
  { apply core_made; [exact T|]. intros d I. assert (K : In d (a' ++ [] ++ b')) by (rewrite <- E; apply in_or_app; right; apply in_or_app; left; exact I).
    cbn [app] in K. apply in_app_or in K. destruct K; auto. }
  cbn [app] in E. destruct (cs_prefix a a' c c' (u ++ b) (u' ++ b') A A') as (_ & E2); [exact (proj1 T c u eq_refl)|exact (proj1 T' c' u' eq_refl)|exact E|].
  change ((c :: u) ++ b = (c' :: u') ++ b') in E2.
  destruct (exists_last (l := c :: u)) as (v & d & Ev); [discriminate|]. destruct (exists_last (l := c' :: u')) as (v' & d' & Ev'); [discriminate|].
  rewrite Ev, Ev' in *. apply (f_equal (@rev ascii)) in E2. rewrite !rev_app_distr in E2. cbn [rev app] in E2.
  destruct (cs_prefix (rev b) (rev b') d d' (rev v) (rev v')) as (_ & E3).
  { intros x I. apply B. apply in_rev. exact I. }
  { intros x I. apply B'. apply in_rev. exact I. }
  { destruct T as [_ T]. eapply T. reflexivity. }
  { destruct T' as [_ T']. eapply T'. reflexivity. }
  { exact E2. }
  injection E3 as -> E3. apply (f_equal (@rev ascii)) in E3. rewrite !rev_involutive in E3. rewrite E3. reflexivity.
Qed.
End Any.
Lemma plain_fun v t t' : plain v t -> plain v t' -> t = t'.
Proof. intros (a & b & -> & A & B & C) (a' & b' & E & A' & B' & C'). eapply (core_fun around a b t a' b' t'); eauto. Qed.
Lemma unit_value_fun v x x' : unit_value v x -> unit_value v x' -> x = x'.
Proof.
  intros U U'. inversion U as [? t P I|? t P I|? t P N1 N2]; inversion U' as [? t' P' I'|? t' P' I'|? t' P' N1' N2']; subst; try reflexivity; pose proof (plain_fun _ _ _ P P'); subst t'; try contradiction.
  - exfalso. destruct I as [<-|[<-|[]]]; destruct I' as [X|[X|[]]]; discriminate X.
  - exfalso. destruct I as [<-|[<-|[]]]; destruct I' as [X|[X|[]]]; discriminate X.
Qed.
Lemma fixed_fun k x x' : fixed k x -> fixed k x' -> x = x'.
Proof. intros F F'. inversion F; inversion F'; subst; try contradiction; try reflexivity. f_equal. eapply unit_value_fun; eauto. Qed.
Lemma same_ok a b : same_text a b = true <-> a = b.
Proof. unfold same_text. destruct (list_eq_dec ascii_dec a b); split; auto; discriminate. Qed.
Lemma value_ok v t : plain v t -> unit_value v (if same_text t (lit "micron") || same_text t (lit "microns") then lit "'um'"
              else if same_text t (lit "degree") || same_text t (lit "degrees") then lit "'deg'" else v).
Proof.
  intros P. destruct (same_text t (lit "micron") || same_text t (lit "microns")) eqn:E.
  - apply Bool.orb_true_iff in E. rewrite !same_ok in E. apply (unit_um v t P). destruct E as [-> | ->]; cbn; auto.
  - destruct (same_text t (lit "degree") || same_text t (lit "degrees")) eqn:F.
    + apply Bool.orb_true_iff in F. rewrite !same_ok in F. apply (unit_deg v t P). destruct F as [-> | ->]; cbn; auto.
    + apply Bool.orb_false_iff in E, F. destruct E as [E1 E2], F as [F1 F2]. apply (unit_other v t P).
      * intros [<-|[<-|[]]]; [rewrite (proj2 (same_ok _ _) eq_refl) in E1|rewrite (proj2 (same_ok _ _) eq_refl) in E2]; discriminate.
      * intros [<-|[<-|[]]]; [rewrite (proj2 (same_ok _ _) eq_refl) in F1|rewrite (proj2 (same_ok _ _) eq_refl) in F2]; discriminate.
Qed.
Lemma fixed_key k k' : fixed k k' -> key k' = key k. Proof. intros F. inversion F; reflexivity. Qed.

(* --- the loop ------------------------------------------------------------------- *)
Definition looks (k : keyword) : bool := regex_match (key k) lookup_key && regex_match (value k) lookup_value.
Lemma apart_ul k : is_unit_key k -> is_lookup_key k -> False.
Proof. intros (n & -> & _) (c & m & C & E & _). destruct C as [-> | ->]; discriminate E. Qed.
Lemma apart_us k : is_unit_key k -> is_sip_key k -> False.
Proof. intros (n & -> & _) (c & p & m & C & _ & E & _). destruct C as [-> | ->]; discriminate E. Qed.
Lemma apart_ls k : is_lookup_key k -> is_sip_key k -> False.
Proof. intros (d & n & _ & -> & _) (c & p & m & C & _ & E & _). destruct C as [-> | ->]; discriminate E. Qed.
Lemma no_match b P : (b = true <-> P) -> ~ P -> b = false. Proof. intros H N. destruct b; [|reflexivity]. exfalso. apply N, H. reflexivity. Qed.
Lemma step_ok l cp sip k : exists k', fixed k k' /\
  cure_step (l, cp, sip) k = Ok (l ++ [k'], cp || looks k, sip || regex_match (key k) sip_key).
Proof.
  unfold cure_step, looks. destruct (regex_match (key k) unit_key) eqn:U.
  - apply unit_ok in U. destruct (trim_plain (value k)) as (t & -> & P). cbn [obind].
    rewrite (no_match _ _ (lookup_ok (key k)) (apart_ul _ U)), (no_match _ _ (sip_ok (key k)) (apart_us _ U)).
    cbn [andb]. rewrite !Bool.orb_false_r. eexists. split; [|reflexivity]. constructor; [exact U|]. apply value_ok, P.
  - assert (NU : ~ is_unit_key (key k)) by (intros X; apply unit_ok in X; congruence). exists k. split; [constructor; exact NU|].
    destruct (regex_match (key k) lookup_key) eqn:L; cbn [andb].
    + apply lookup_ok in L. rewrite (no_match _ _ (sip_ok (key k)) (apart_ls _ L)). destruct (regex_match (value k) lookup_value); rewrite ?Bool.orb_true_r, ?Bool.orb_false_r; reflexivity.
    + destruct (regex_match (key k) sip_key); rewrite ?Bool.orb_true_r, ?Bool.orb_false_r; reflexivity.
Qed.
Lemma loop_ok : forall ks l cp sip, exists l', Forall2 fixed ks l' /\
  ofold cure_step ks (l, cp, sip) = Ok (l ++ l', cp || existsb looks ks, sip || existsb (fun k => regex_match (key k) sip_key) ks).
Proof.
  induction ks as [|k ks IH]; intros l cp sip.
  - exists []. cbn [ofold existsb]. rewrite app_nil_r, !Bool.orb_false_r. split; [constructor|reflexivity].
  - cbn [ofold existsb]. destruct (step_ok l cp sip k) as (k' & F & ->). cbn [obind]. destruct (IH (l ++ [k']) (cp || looks k) (sip || regex_match (key k) sip_key)) as (l' & F' & ->).
    exists (k' :: l'). split; [constructor; assumption|]. rewrite <- app_assoc, <- !Bool.orb_assoc. reflexivity.
Qed.
Lemma looks_ok ks : existsb looks ks = true <-> uses_lookup ks.
Proof.
  rewrite existsb_exists. unfold looks, uses_lookup. split; intros (k & I & H); exists k.
  - apply Bool.andb_true_iff in H. destruct H as [H1 H2]. split; [exact I|]. split; [apply lookup_ok, H1|apply part in H2; exact H2].
  - split; [exact I|]. apply Bool.andb_true_iff. destruct H as [H1 H2]. split; [apply lookup_ok, H1|apply part, H2].
Qed.
Lemma keep_ok (P : keyword -> Prop) (f : keyword -> bool) l : (forall k, In k l -> (f k = false <-> P k)) ->
  kept_only P l (map fst (filter snd (combine l (map f l)))).
Proof.
  induction l as [|k l IH]; intros H; [constructor|]. cbn [map combine filter snd].
  assert (Hl : forall x, In x l -> (f x = false <-> P x)) by (intros x I; apply H; right; exact I).
  pose proof (H k (or_introl eq_refl)) as Hk. destruct (f k) eqn:E; cbn [map fst].
  - apply kept_yes; [|apply IH, Hl]. intros X. apply Hk in X. congruence.
  - apply kept_no; [apply Hk; reflexivity|apply IH, Hl].
Qed.
Lemma kept_fun P l x : kept_only P l x -> forall x', kept_only P l x' -> x = x'.
Proof. induction 1; intros x' K; inversion K; subst; try contradiction; try reflexivity; [f_equal|]; auto. Qed.
Lemma forall2_fun ks l : Forall2 fixed ks l -> forall l', Forall2 fixed ks l' -> l = l'.
Proof. induction 1; intros m' G; inversion G; subst; [reflexivity|]. f_equal; [eapply fixed_fun; eauto|auto]. Qed.
Lemma cured_fun ks a b : cured ks a -> cured ks b -> a = b.
Proof. intros (l & F & K) (l' & F' & K'). pose proof (forall2_fun _ _ F _ F'). subst l'. eapply kept_fun; eauto. Qed.
Lemma forall2_in {A B} (R : A -> B -> Prop) l l' : Forall2 R l l' -> forall y, In y l' -> exists x, In x l /\ R x y.
Proof. induction 1 as [|x y l l' H F IH]; intros z Z; [destruct Z|]. destruct Z as [<-|Z]; [exists x; cbn; auto|]. destruct (IH z Z) as (w & W & R'). exists w. cbn. auto. Qed.
Lemma forall2_in_l {A B} (R : A -> B -> Prop) l l' : Forall2 R l l' -> forall x, In x l -> exists y, In y l' /\ R x y.
Proof. induction 1 as [|x y l l' H F IH]; intros z Z; [destruct Z|]. destruct Z as [<-|Z]; [exists y; cbn; auto|]. destruct (IH z Z) as (w & W & R'). exists w. cbn. auto. Qed.
Lemma cure_keys_ok ks : exists ks', cure_keys ks = Ok ks' /\ cured ks ks'.
Proof.
  unfold cure_keys. destruct (loop_ok ks [] false false) as (l & F & ->). cbn [obind app orb]. eexists. split; [reflexivity|]. exists l. split; [exact F|].
  apply keep_ok. intros k I. rewrite Bool.andb_false_iff, !Bool.negb_false_iff, !Bool.andb_true_iff, looks_ok, distortion_ok, sip_ok.
  unfold dropped. destruct (forall2_in _ _ _ F k I) as (k0 & I0 & F0). split.
  - intros [[A B]|[A B]]; auto.
  - intros [A|[A B]]; auto. right. split; [|exact A]. apply existsb_exists. exists k0. split; [exact I0|]. apply sip_ok. rewrite <- (fixed_key _ _ F0). exact A.
Qed.

(* --- twice ---------------------------------------------------------------------- *)
Lemma kept_in P l x : kept_only P l x -> forall k, In k x <-> In k l /\ ~ P k.
Proof.
  induction 1 as [|k l l' N K IH|k l l' N K IH]; intros z; cbn [In]; [intuition|rewrite IH|rewrite IH]; intuition (subst; auto); contradiction.
Qed.
Lemma plain_self v t : v = "'"%char :: t ++ ["'"%char] -> core around t -> plain v t.
Proof. intros -> C. exists ["'"%char], ["'"%char]. split; [reflexivity|]. split; [intros c [<-|[]]; cbn; auto|]. split; [intros c [<-|[]]; cbn; auto|exact C]. Qed.
Lemma core_word c m d : ~ In c around -> ~ In d around -> core around (c :: m ++ [d]).
Proof.
  intros C D. split; [intros c' t E; injection E as <- _; exact C|]. intros u e E. change (c :: m ++ [d]) with ((c :: m) ++ [d]) in E.
  apply app_inj_tail in E. destruct E as [_ <-]. exact D.
Qed.
Lemma fixed_again k k' : fixed k k' -> fixed k' k'.
Proof.
  intros F. inversion F as [? v U V|? N]; subst; [|constructor; exact N].
  assert (G : unit_value v v).
  { inversion V as [? t P I|? t P I|? t P N1 N2]; subst; [| |exact V].
    - apply (unit_other _ ["u"; "m"]%char).
      + apply plain_self; [reflexivity|]. apply (core_word "u"%char [] "m"%char); cbn; intuition discriminate.
      + cbn. intuition discriminate.
      + cbn. intuition discriminate.
    - apply (unit_other _ ["d"; "e"; "g"]%char).
      + apply plain_self; [reflexivity|]. apply (core_word "d"%char ["e"%char] "g"%char); cbn; intuition discriminate.
      + cbn. intuition discriminate.
      + cbn. intuition discriminate. }
  apply (fixed_unit (Keyword (key k) v (comment k) (novalue k)) v U G).
Qed.
Lemma lookup_distortion k : is_lookup_key k -> is_distortion_key k.
Proof.
  intros (c & n & C & -> & N). exists (["C"; c; "D"; "I"; "S"]%char), n. split; [reflexivity|]. split; [exact N|]. right.
  exists ["C"%char; c], ["D"; "I"; "S"]%char. split; [reflexivity|]. split; [destruct C as [-> | ->]; cbn; auto|cbn; auto].
Qed.
Lemma kept_all P l : (forall k, In k l -> ~ P k) -> kept_only P l l.
Proof. induction l as [|k l IH]; intros H; [constructor|]. apply kept_yes; [apply H; left; reflexivity|]. apply IH. intros x I. apply H. right. exact I. Qed.
Lemma uses_from ks l : Forall2 fixed ks l -> forall x, (forall k, In k x -> In k l) -> uses_lookup x -> uses_lookup ks.
Proof.
  intros F x S (k & I & L & V). destruct (forall2_in _ _ _ F k (S _ I)) as (k0 & I0 & F0). exists k0. split; [exact I0|].
  inversion F0 as [? v U _|? N]; subst; [|auto]. exfalso. exact (apart_ul _ U L).
Qed.
Lemma cured_twice ks ks' : cured ks ks' -> cured ks' ks'.
Proof.
  intros (l & F & K). exists ks'. pose proof (kept_in _ _ _ K) as In_. split.
  - assert (H : forall k, In k ks' -> fixed k k).
    { intros k I. apply In_ in I. destruct I as [I _]. destruct (forall2_in _ _ _ F k I) as (k0 & _ & F0). eapply fixed_again; eauto. }
    clear - H. induction ks' as [|k x IH]; constructor; [apply H; left; reflexivity|]. apply IH. intros y I. apply H. right. exact I.
  - apply kept_all. intros k I [S|[U D]]; apply In_ in I; destruct I as [I N]; apply N; [left; exact S|]. right. split; [|exact D].
    apply (uses_from _ _ F ks'); [|exact U]. intros x X. apply In_ in X. apply X.
Qed.

(* --- text ----------------------------------------------------------------------- *)
Lemma plain_nil t : plain [] t -> t = [].
Proof. intros (a & b & E & _). symmetry in E. apply app_eq_nil in E. destruct E as [_ E]. apply app_eq_nil in E. apply E. Qed.
Lemma padded_len n s : length (padded n s) = Nat.max n (length s).
Proof. unfold padded. rewrite app_length, repeat_length. lia. Qed.
Lemma lpadded_len n s : length (lpadded n s) = Nat.max n (length s).
Proof. unfold lpadded. rewrite app_length, repeat_length. lia. Qed.
Lemma normal_new k v : normal k -> is_unit_key (key k) -> novalue k = false -> quoted v -> length v <= 20 -> normal (Keyword (key k) v (comment k) (novalue k)).
Proof.
  intros (Bk & Bc & (t & Lt & Lb) & N) U E Q Lv. rewrite E in *. split; [exact Bk|]. split; [exact Bc|]. cbn [key value comment novalue]. split.
  - assert (H : ~ starts_with hierarch (key k)). { intros (r & Er). destruct U as (n & En & _). rewrite En in Er. discriminate Er. }
    exists (padded 8 (key k) ++ ["="; " "]%char ++ padded 20 v ++ note (comment k)). split.
    + apply (laid_quoted (Keyword (key k) v (comment k) false)); [reflexivity|exact H|]. destruct Q as (s & -> & _). cbn [value]. exists (s ++ ["'"%char]). reflexivity.
    + inversion Lt as [? X|? X Y|? X Y Z|? X Y Z]; subst; try congruence; try contradiction;
        rewrite !app_length, ?padded_len, ?lpadded_len in Lb; rewrite !app_length, !padded_len; cbn [List.length] in *; lia.
  - destruct N as (N1 & N2 & N3 & _). repeat split; auto.
Qed.
Lemma normal_fixed k k' : normal k -> fixed k k' -> normal k'.
Proof.
  intros N F. inversion F as [? v U V|]; subst; [|exact N].
  assert (NV : forall t, plain (value k) t -> t <> [] -> novalue k = false).
  { intros t P T. destruct N as (_ & _ & _ & N). destruct (novalue k); [|reflexivity]. destruct N as [N _]. rewrite N in P. apply plain_nil in P. contradiction. }
  inversion V as [? t P I|? t P I|? t P N1 N2]; subst.
  - apply normal_new; auto.
    + apply (NV t P). destruct I as [<-|[<-|[]]]; discriminate.
    + exists ["u"; "m"]%char. split; [reflexivity|]. cbn. intuition discriminate.
    + cbn. lia.
  - apply normal_new; auto.
    + apply (NV t P). destruct I as [<-|[<-|[]]]; discriminate.
    + exists ["d"; "e"; "g"]%char. split; [reflexivity|]. cbn. intuition discriminate.
    + cbn. lia.
  - destruct k; exact N.
Qed.
Lemma normal_cured ks ks' : Forall normal ks -> cured ks ks' -> Forall normal ks'.
Proof.
  intros N (l & F & K). apply Forall_forall. intros k I. apply (kept_in _ _ _ K) in I. destruct I as [I _].
  destruct (forall2_in _ _ _ F k I) as (k0 & I0 & F0). eapply normal_fixed; [|exact F0]. eapply Forall_forall; eauto.
Qed.
