(* Proofs about the keywords of a FITS header. *)
From Coq Require Import Ascii Lia.
From Verif Require Import Base StrModel StrSpec StrProofs KeyModel KeySpec.

Lemma same_str_iff a b : same_str a b = true <-> a = b.
Proof. unfold same_str. destruct (list_eq_dec ascii_dec a b); split; intros; try congruence; try discriminate. Qed.

(* stripped text *)
Lemma core_bare m : core blanks m -> bare m.
Proof.
  intros [->|[(c & t & -> & Nc) (t' & c' & E & Nc')]]; split; intros.
  - discriminate.
  - destruct u; discriminate.
  - injection H as <- <-. exact Nc.
  - rewrite E in H. apply app_inj_tail in H. destruct H as [_ <-]. exact Nc'.
Qed.
Lemma trim_stripped s : exists m, trim s blanks = Ok m /\ stripped s m.
Proof.
  destruct (trim_ok s blanks) as (m & E & (a & b & S & A & B) & C). exists m. split; [exact E|]. exists a, b. repeat split; try assumption; apply core_bare, C.
Qed.
Lemma white_prefix : forall a a' c c' x x', made_of white a -> made_of white a' -> ~ In c white -> ~ In c' white ->
  a ++ c :: x = a' ++ c' :: x' -> a = a' /\ c :: x = c' :: x'.
Proof.
  induction a as [|w a IH]; intros [|w' a'] c c' x x' A A' C C' E; cbn [app] in E.
  - auto.
  - injection E as -> _. destruct C. apply A'. left. reflexivity.
  - injection E as -> _. destruct C'. apply A. left. reflexivity.
  - injection E as -> E. destruct (IH a' c c' x x') as (-> & E'); auto; intros z Hz; [apply A|apply A']; right; exact Hz.
Qed.
Lemma made_nil : made_of white []. Proof. intros ? []. Qed.
Lemma made_app2 a b : made_of white a -> made_of white b -> made_of white (a ++ b).
Proof. intros A B c I. apply in_app_or in I. destruct I; auto. Qed.
Lemma bare_white t : bare t -> made_of white t -> t = [].
Proof. intros [H _] W. destruct t as [|c u]; [reflexivity|]. destruct (H c u eq_refl). apply W. left. reflexivity. Qed.
Lemma made_rev a : made_of white a -> made_of white (rev a).
Proof. intros A c I. apply A. apply in_rev. exact I. Qed.
Lemma stripped_fun s t t' : stripped s t -> stripped s t' -> t = t'.
Proof.
  intros (a & b & -> & A & B & T) (a' & b' & E & A' & B' & T').
  destruct t as [|c u].
  { symmetry. apply bare_white; [exact T'|]. intros c I. assert (K : In c (a ++ [] ++ b)) by (rewrite E; apply in_or_app; right; apply in_or_app; left; exact I).
    cbn [app] in K. apply (made_app2 a b A B c K). }
  destruct t' as [|c' u'].
  { apply bare_white; [exact T|]. intros d I. assert (K : In d (a' ++ [] ++ b')) by (rewrite <- E; apply in_or_app; right; apply in_or_app; left; exact I).
    cbn [app] in K. apply (made_app2 a' b' A' B' d K). }
  cbn [app] in E. destruct (white_prefix a a' c c' (u ++ b) (u' ++ b') A A') as (_ & E2); [exact (proj1 T c u eq_refl)|exact (proj1 T' c' u' eq_refl)|exact E|].
  change ((c :: u) ++ b = (c' :: u') ++ b') in E2.
  destruct (exists_last (l := c :: u)) as (v & d & Ev); [discriminate|]. destruct (exists_last (l := c' :: u')) as (v' & d' & Ev'); [discriminate|].
  rewrite Ev, Ev' in *. apply (f_equal (@rev ascii)) in E2. rewrite !rev_app_distr in E2. cbn [rev app] in E2.
  destruct (white_prefix (rev b) (rev b') d d' (rev v) (rev v') (made_rev b B) (made_rev b' B')) as (_ & E3).
  { destruct T as [_ T]. eapply T. reflexivity. }
  { destruct T' as [_ T']. eapply T'. reflexivity. }
  { exact E2. }
  injection E3 as -> E3. apply (f_equal (@rev ascii)) in E3. rewrite !rev_involutive in E3. rewrite E3. reflexivity.
Qed.

(* the first equal sign *)
Lemma first_split (c : ascii) (a b a' b' : list ascii) : ~ In c a -> ~ In c a' -> a ++ c :: b = a' ++ c :: b' -> a = a' /\ b = b'.
Proof.
  revert a'. induction a as [|x a IH]; intros [|x' a'] A A' E; cbn [app] in E.
  - injection E as ->. auto.
  - injection E as -> _. destruct A'. left. reflexivity.
  - injection E as -> _. destruct A. left. reflexivity.
  - injection E as -> E. destruct (IH a') as (-> & ->); auto; intros I; [apply A|apply A']; right; exact I.
Qed.
Lemma has1 c d : has [c] d = true <-> d = c.
Proof. rewrite has_In. cbn. intuition. Qed.
Lemma has1_false c (a : list ascii) : (forall x, In x a -> has [c] x = false) <-> ~ In c a.
Proof.
  split.
  - intros H I. specialize (H c I). rewrite (proj2 (has1 c c) eq_refl) in H. discriminate.
  - intros N x I. destruct (has [c] x) eqn:E; [|reflexivity]. apply has1 in E. subst. contradiction.
Qed.
Lemma find1 c (s : list ascii) k : k <= length s ->
  match find_first (has [c]) s (Some k) with
  | Some p => exists a b, skipn k s = a ++ c :: b /\ p = k + length a /\ ~ In c a
  | None => ~ In c (skipn k s)
  end.
Proof.
  intros _. unfold find_first. pose proof (first_at_spec (has [c]) (skipn k s) k) as H. destruct (first_at _ _ _).
  - destruct H as (a & d & b & E & -> & P & N). apply has1 in P. subst d. exists a, b. split; [exact E|]. split; [reflexivity|]. apply has1_false, N.
  - apply has1_false, H.
Qed.
Lemma eq_pos_ok e : (eq_pos e = None /\ ~ In "="%char e) \/
  exists a b, e = a ++ "="%char :: b /\ ~ In "="%char a /\ eq_pos e = Some (length a).
Proof.
  unfold eq_pos. pose proof (find1 "="%char e 0 (Nat.le_0_l _)) as H. destruct (find_first _ e (Some 0)); [right|left; auto].
  destruct H as (a & b & E & -> & N). cbn [skipn] in E. exists a, b. auto.
Qed.
Lemma slash_pos_ok a b : (slash_pos (a ++ "="%char :: b) (length a) = None /\ ~ In "/"%char b) \/
  exists v w, b = v ++ "/"%char :: w /\ ~ In "/"%char v /\ slash_pos (a ++ "="%char :: b) (length a) = Some (length a + 1 + length v).
Proof.
  unfold slash_pos. pose proof (find1 "/"%char (a ++ "="%char :: b) (length a)) as H.
  rewrite skipn_len_app in H. destruct (find_first _ _ _).
  - right. destruct H as (x & y & E & -> & N); [rewrite app_length; lia|]. destruct x as [|z x]; [discriminate|]. injection E as <- ->.
    exists x, y. split; [reflexivity|]. split; [intros I; apply N; right; exact I|]. f_equal. cbn [length]. lia.
  - left. split; [reflexivity|]. intros I. apply H; [rewrite app_length; lia|right; exact I].
Qed.
Lemma name_ok a b : exists nm, name_of (a ++ "="%char :: b) (length a) = Ok nm /\ stripped a nm.
Proof.
  unfold name_of. pose proof (substr_mid [] a ("="%char :: b)) as E. cbn [app length] in E. rewrite E. cbn [obind]. apply trim_stripped.
Qed.
Lemma named_iff a b k nm : ~ In "="%char a -> stripped a nm -> (named (a ++ "="%char :: b) k <-> nm = k).
Proof.
  intros N S. split.
  - intros (a' & b' & E & N' & S'). destruct (first_split _ _ _ _ _ N N' E) as (-> & _). eapply stripped_fun; eauto.
  - intros <-. exists a, b. auto.
Qed.
Lemma named_not c k : ~ In "="%char c -> ~ named c k.
Proof. intros N (a & b & -> & _). apply N. apply in_or_app. right. left. reflexivity. Qed.
Lemma valued_fun c t t' : valued c t -> valued c t' -> t = t'.
Proof.
  intros (a & b & v & -> & N & B & V & S) (a' & b' & v' & E & N' & B' & V' & S').
  destruct (first_split _ _ _ _ _ N N' E) as (_ & <-).
  assert (v = v').
  { destruct B as [<-|(w & ->)], B' as [<-|(w' & B')].
    - reflexivity.
    - subst b. destruct V. apply in_or_app. right. left. reflexivity.
    - destruct V'. apply in_or_app. right. left. reflexivity.
    - destruct (first_split _ _ _ _ _ V V' B') as (-> & _). reflexivity. }
  subst v'. eapply stripped_fun; eauto.
Qed.
Lemma named_fun c k k' : named c k -> named c k' -> k = k'.
Proof. intros (a & b & -> & N & S) H. apply (named_iff a b k' k N S) in H. exact H. Qed.
Lemma lookup_fun l k o o' : lookup l k o -> lookup l k o' -> o = o'.
Proof.
  destruct o as [t|], o' as [t'|]; cbn [lookup]; intros H H'.
  - destruct H as (p & c & q & (-> & N & F) & V), H' as (p' & c' & q' & (E & N' & F') & V').
    assert (D : c = c').
    { clear V V'. revert p' E F F'. induction p as [|x p IH]; intros [|x' p'] E F F'; cbn [app] in E; injection E as E1 E.
      - exact E1.
      - subst x'. destruct (F' c); [left; reflexivity|exact N].
      - subst x. destruct (F c'); [left; reflexivity|exact N'].
      - eapply IH; [exact E|intros d I; apply F; right; exact I|intros d I; apply F'; right; exact I]. }
    subst c'. f_equal. eapply valued_fun; eauto.
  - destruct H as (p & c & q & (-> & N & F) & V). destruct (H' c); [apply in_or_app; right; left; reflexivity|exact N].
  - destruct H' as (p & c & q & (-> & N & F) & V). destruct (H c); [apply in_or_app; right; left; reflexivity|exact N].
  - reflexivity.
Qed.

(* cards *)
Lemma concat_len l : cards l -> length (concat l) = 80 * length l.
Proof.
  induction l as [|c l IH]; intros C; [reflexivity|]. cbn [concat]. rewrite app_length, (C c) by (left; reflexivity).
  rewrite IH by (intros d I; apply C; right; exact I). cbn [length]. lia.
Qed.
Lemma cards_app p q : cards (p ++ q) <-> cards p /\ cards q.
Proof.
  split.
  - intros C. split; intros c I; apply C, in_or_app; auto.
  - intros [A B] c I. apply in_app_or in I. destruct I; auto.
Qed.
Lemma card_at_ok p c l : cards (p ++ c :: l) -> card_at (concat (p ++ c :: l)) (length p) = Ok c.
Proof.
  intros C. apply cards_app in C. destruct C as [Cp Cl]. unfold card_at. rewrite concat_app. cbn [concat].
  rewrite !app_length, (concat_len p Cp), (Cl c) by (left; reflexivity).
  replace (length p * 80) with (length (concat p)) by (rewrite concat_len by exact Cp; lia).
  replace (Nat.min 80 _) with (length c) by (rewrite (Cl c) by (left; reflexivity); rewrite (concat_len p Cp); lia).
  apply substr_mid.
Qed.
Lemma card_at_end p : cards p -> card_at (concat p) (length p) = Ok [].
Proof.
  intros C. unfold card_at. rewrite (concat_len p C). replace (length p * 80) with (80 * length p) by lia.
  unfold substr. rewrite (concat_len p C), Nat.leb_refl. replace (Nat.min 80 _) with 0 by lia. reflexivity.
Qed.

Lemma find_text_ok : forall l p key, cards (p ++ l) ->
  exists o, find_text (concat (p ++ l)) key (seq (length p) (length l + 1)) = Ok o /\ lookup l key o.
Proof.
  induction l as [|c l IH]; intros p key C.
  - cbn [length Nat.add seq find_text]. rewrite app_nil_r in *. rewrite (card_at_end p C). cbn [obind]. exists None. split; [reflexivity|]. intros d [].
  - cbn [length Nat.add seq find_text]. rewrite (card_at_ok p c l C). cbn [obind].
    specialize (IH (p ++ [c]) key). rewrite <- app_assoc in IH. cbn [app] in IH. destruct (IH C) as (o & E & L).
    replace (length (p ++ [c])) with (S (length p)) in E by (rewrite app_length; cbn; lia).
    assert (Skip : ~ named c key -> lookup (c :: l) key o).
    { intros N. destruct o as [t|]; cbn [lookup] in *.
      - destruct L as (p' & d & q & (-> & Nd & F) & V). exists (c :: p'), d, q. split; [|exact V]. split; [reflexivity|]. split; [exact Nd|].
        intros x [<-|I]; auto.
      - intros d [<-|I]; auto. }
    destruct (eq_pos_ok c) as [(-> & N)|(a & b & Ec & N & ->)].
    + exists o. split; [exact E|]. apply Skip, named_not, N.
    + subst c. destruct (name_ok a b) as (nm & -> & S). cbn [obind].
      destruct (same_str nm key) eqn:Sm.
      * apply same_str_iff in Sm. subst nm.
        assert (K : exists v, match slash_pos (a ++ "="%char :: b) (length a) with
                 | Some cpos => substr (a ++ "="%char :: b) (length a + 1) (cpos - length a - 1)
                 | None => substr_end (a ++ "="%char :: b) (length a + 1)
                 end = Ok v /\ (b = v \/ (exists w, b = v ++ "/"%char :: w)) /\ ~ In "/"%char v).
        { destruct (slash_pos_ok a b) as [(-> & Nb)|(v & w & -> & Nv & ->)].
          - exists b. split; [|auto]. pose proof (substr_tail (a ++ ["="%char]) b) as T. rewrite <- app_assoc in T. cbn [app] in T.
            rewrite app_length in T. exact T.
          - exists v. split; [|eauto]. pose proof (substr_mid (a ++ ["="%char]) v ("/"%char :: w)) as T. rewrite <- app_assoc in T. cbn [app] in T.
            rewrite app_length in T. cbn [length] in T. replace (length a + 1 + length v - length a - 1) with (length v) by lia. exact T. }
        destruct K as (v & -> & B & Nv). cbn [obind]. destruct (trim_stripped v) as (t & -> & St). cbn [obind]. exists (Some t). split; [reflexivity|].
        exists [], (a ++ "="%char :: b), l. split; [split; [reflexivity|]; split; [exists a, b; auto|intros d []]|].
        exists a, b, v. auto 10.
      * exists o. split; [exact E|]. apply Skip. rewrite (named_iff a b key nm N S). intros K. apply same_str_iff in K. congruence.
Qed.
Lemma get_text_ok l key : cards l -> exists o, get_text (concat l) key = Ok o /\ lookup l key o.
Proof.
  intros C. unfold get_text. rewrite (concat_len l C). replace (80 * length l / 80) with (length l) by (rewrite Nat.mul_comm, Nat.div_mul; lia).
  apply (find_text_ok l [] key C).
Qed.

(* setkey *)
Definition with_remark (ent : list ascii) (nc : bool) (c e : list ascii) : Prop :=
  (nc = true /\ exists w, remark c (Some w) /\
     let s := ent ++ [" "; "/"]%char ++ w in
     (length s <= 80 /\ e = s) \/ (80 < length s /\ (e = firstn 80 s \/ (exists u, s = u ++ ["&"%char]) /\ e = firstn 79 s ++ ["&"%char]))) \/
  ((nc = false \/ remark c None) /\ e = ent).
Lemma last_amp (s : list ascii) : last s " "%char = "&"%char -> exists u, s = u ++ ["&"%char].
Proof.
  intros L. destruct s as [|x s]; [discriminate|]. exists (removelast (x :: s)). rewrite <- L. apply app_removelast_last. discriminate.
Qed.
Lemma erase_mid (p c q : list ascii) : length c = 80 -> erase (p ++ c ++ q) (length p) 80 = Ok (p ++ q).
Proof.
  intros L. unfold erase. destruct (Nat.leb_spec (length p) (length (p ++ c ++ q))); [|rewrite app_length in *; lia].
  rewrite firstn_len_app. f_equal. f_equal. rewrite app_assoc. replace (length p + 80) with (length (p ++ c)) by (rewrite app_length; lia).
  apply skipn_len_app.
Qed.
Lemma set_loop_ok : forall l p key ent nc ip, cards (p ++ l) ->
  (set_loop (concat (p ++ l)) key ent nc ip (seq (length p) (length l + 1)) = Ok (ent, concat (p ++ l), ip) /\ forall d, In d l -> ~ named d key) \/
  (exists p' c q e, first_named l key p' c q /\ with_remark ent nc c e /\
     set_loop (concat (p ++ l)) key ent nc ip (seq (length p) (length l + 1)) = Ok (e, concat (p ++ p' ++ q), Some (length (concat (p ++ p'))))).
Proof.
  induction l as [|c l IH]; intros p key ent nc ip C.
  - cbn [length Nat.add seq set_loop]. rewrite app_nil_r in *. rewrite (card_at_end p C). cbn [obind]. left. split; [reflexivity|]. intros d [].
  - cbn [length Nat.add seq set_loop]. rewrite (card_at_ok p c l C). cbn [obind].
    specialize (IH (p ++ [c]) key ent nc ip). rewrite <- app_assoc in IH. cbn [app] in IH. specialize (IH C).
    replace (length (p ++ [c])) with (S (length p)) in IH by (rewrite app_length; cbn; lia).
    assert (Skip : ~ named c key ->
      (set_loop (concat (p ++ c :: l)) key ent nc ip (seq (S (length p)) (length l + 1)) = Ok (ent, concat (p ++ c :: l), ip) /\ forall d, In d (c :: l) -> ~ named d key) \/
      (exists p' d q e, first_named (c :: l) key p' d q /\ with_remark ent nc d e /\
         set_loop (concat (p ++ c :: l)) key ent nc ip (seq (S (length p)) (length l + 1)) = Ok (e, concat (p ++ p' ++ q), Some (length (concat (p ++ p')))))).
    { intros N. destruct IH as [(E & F)|(p' & d & q & e & (-> & Nd & F) & W & E)].
      - left. split; [exact E|]. intros d [<-|I]; auto.
      - right. exists (c :: p'), d, q, e. split; [split; [reflexivity|]; split; [exact Nd|]; intros x [<-|I]; auto|]. split; [exact W|].
        rewrite <- !app_assoc in E. cbn [app] in E. exact E. }
    destruct (eq_pos_ok c) as [(-> & N)|(a & b & Ec & N & ->)].
    + apply Skip, named_not, N.
    + destruct (name_ok a b) as (nm & En & S). rewrite <- Ec in En. rewrite En. cbn [obind].
      destruct (same_str nm key) eqn:Sm.
      * apply same_str_iff in Sm. subst nm. right.
        assert (Lc : length c = 80) by (apply C, in_or_app; right; left; reflexivity).
        assert (Cp : cards p) by (apply cards_app in C; tauto).
        assert (Er : erase (concat (p ++ c :: l)) (length p * 80) 80 = Ok (concat (p ++ l))).
        { rewrite !concat_app. cbn [concat]. replace (length p * 80) with (length (concat p)) by (rewrite (concat_len p Cp); lia). apply erase_mid, Lc. }
        assert (K : exists e, carry_comment ent c (length a) nc = Ok e /\ with_remark ent nc c e).
        { unfold carry_comment. destruct nc; [|exists ent; split; [reflexivity|]; right; auto].
          rewrite Ec. destruct (slash_pos_ok a b) as [(-> & Nb)|(v & w & -> & Nv & ->)].
          - exists ent. split; [reflexivity|]. right. split; [|reflexivity]. right. exists a, b. auto.
          - pose proof (substr_tail (a ++ "="%char :: v ++ ["/"%char]) w) as T. rewrite <- app_assoc in T. cbn [app] in T. rewrite <- app_assoc in T. cbn [app] in T.
            replace (length (a ++ "="%char :: v ++ ["/"%char])) with (length a + 1 + length v + 1) in T by (rewrite app_length; cbn [length]; rewrite app_length; cbn [length]; lia).
            rewrite T. cbn [obind]. cbv zeta. eexists. split; [reflexivity|]. left. split; [reflexivity|]. exists w. split.
            { exists a, (v ++ "/"%char :: w). split; [reflexivity|]. split; [exact N|]. exists v. auto. }
            set (n := ent ++ [" "; "/"]%char ++ w). cbv zeta. destruct (Nat.ltb_spec 80 (length n)) as [L|L]; [right|left; auto].
            split; [exact L|]. destruct (Ascii.eqb_spec (last n " "%char) "&"%char) as [Am|Am]; [right; split; [apply last_amp, Am|reflexivity]|left; reflexivity]. }
        destruct K as (e & -> & W). cbn [obind]. rewrite Er. cbn [obind].
        exists [], c, l, e. split; [split; [reflexivity|]; split; [rewrite Ec; exists a, b; auto|intros d []]|]. split; [exact W|].
        cbn [app]. rewrite app_nil_r, (concat_len p Cp). do 3 f_equal. lia.
      * apply Skip. rewrite Ec, (named_iff a b key nm N S). intros K. apply same_str_iff in K. congruence.
Qed.

(* the card that is written *)
Definition after (Y : list ascii) : Prop := (made_of white Y /\ ~ In "/"%char Y) \/ exists z, Y = " "%char :: "/"%char :: z.
Definition shaped (key value c : list ascii) : Prop := exists Y, c = (key ++ repeat " "%char (8 - length key)) ++ "="%char :: " "%char :: value ++ Y /\ after Y.
Lemma spaces_white n : made_of white (repeat " "%char n).
Proof. intros c I. apply repeat_spec in I. subst. left. reflexivity. Qed.
Lemma spaces_no n d : d <> " "%char -> ~ In d (repeat " "%char n).
Proof. intros N I. apply repeat_spec in I. contradiction. Qed.
Lemma shaped_entry key value com n : (com = None \/ exists w, com = Some w) ->
  shaped key value (entry key value com ++ repeat " "%char n).
Proof.
  intros _. unfold entry, shaped. destruct com as [w|].
  - exists (" "%char :: "/"%char :: (w ++ repeat " "%char n)). split; [|right; eauto]. rewrite <- !app_assoc. reflexivity.
  - exists (repeat " "%char n). split; [|left; split; [apply spaces_white|apply spaces_no; discriminate]]. rewrite app_nil_r, <- !app_assoc. reflexivity.
Qed.
Lemma firstn_over {A} n (a b : list A) : length a <= n -> firstn n (a ++ b) = a ++ firstn (n - length a) b.
Proof. intros L. rewrite firstn_app. rewrite (firstn_all2 a L). reflexivity. Qed.
Lemma shaped_cut key value w n tl : length key <= 8 -> length value <= 67 -> 79 <= n ->
  shaped key value (firstn n (entry key value (Some w)) ++ tl).
Proof.
  intros Lk Lv Ln. unfold entry, shaped.
  set (A := key ++ repeat " "%char (8 - length key) ++ ["="; " "]%char ++ value ++ [" "; "/"]%char).
  replace (key ++ repeat " "%char (8 - length key) ++ ["="; " "]%char ++ value ++ [" "; "/"]%char ++ w) with (A ++ w) by (unfold A; rewrite <- !app_assoc; reflexivity).
  rewrite firstn_over; [|unfold A; rewrite !app_length, repeat_length; cbn [length]; lia].
  exists (" "%char :: "/"%char :: (firstn (n - length A) w ++ tl)). split; [|right; eauto]. unfold A. rewrite <- !app_assoc. reflexivity.
Qed.
Lemma shaped_named key value c : length key <= 8 -> bare key -> ~ In "="%char key -> shaped key value c -> named c key.
Proof.
  intros Lk B N (Y & -> & _). eexists _, _. split; [reflexivity|]. split.
  - intros I. apply in_app_or in I. destruct I as [I|I]; [contradiction|]. revert I. apply spaces_no. discriminate.
  - exists [], (repeat " "%char (8 - length key)). split; [reflexivity|]. split; [apply made_nil|]. split; [apply spaces_white|exact B].
Qed.
Lemma shaped_valued key value c t : ~ In "="%char key -> ~ In "/"%char value -> stripped value t -> shaped key value c -> valued c t.
Proof.
  intros N Nv (a & b & -> & A & B & T) (Y & -> & H).
  assert (K : ~ In "="%char (key ++ repeat " "%char (8 - length key))).
  { intros I. apply in_app_or in I. destruct I as [I|I]; [contradiction|]. revert I. apply spaces_no. discriminate. }
  assert (Ws : made_of white [" "%char]) by (intros d [<-|[]]; left; reflexivity).
  destruct H as [(W & Ny)|(z & ->)].
  - eexists _, _, (" "%char :: (a ++ t ++ b) ++ Y). split; [reflexivity|]. split; [exact K|]. split; [left; reflexivity|]. split.
    + intros [I|I]; [discriminate|]. apply in_app_or in I. tauto.
    + exists (" "%char :: a), (b ++ Y). split; [cbn [app]; rewrite <- !app_assoc; reflexivity|].
      split; [apply (made_app2 [" "%char] a Ws A)|]. split; [apply made_app2; assumption|exact T].
  - eexists _, _, (" "%char :: (a ++ t ++ b) ++ [" "%char]). split; [reflexivity|]. split; [exact K|].
    split; [right; exists z; cbn [app]; rewrite <- !app_assoc; reflexivity|]. split.
    + intros [I|I]; [discriminate|]. apply in_app_or in I. destruct I as [I|[I|[]]]; [tauto|discriminate].
    + exists (" "%char :: a), (b ++ [" "%char]). split; [cbn [app]; rewrite <- !app_assoc; reflexivity|].
      split; [apply (made_app2 [" "%char] a Ws A)|]. split; [apply made_app2; assumption|exact T].
Qed.
Lemma lookup_new l1 l2 key c t : (forall d, In d l1 -> ~ named d key) -> named c key -> valued c t -> lookup (l1 ++ c :: l2) key (Some t).
Proof. intros N C V. exists l1, c, l2. split; [split; [reflexivity|]; auto|exact V]. Qed.
Lemma lookup_insert l1 l2 key c o : ~ named c key -> lookup (l1 ++ l2) key o -> lookup (l1 ++ c :: l2) key o.
Proof.
  intros N. destruct o as [t|]; cbn [lookup].
  - intros (p & d & q & (E & Nd & F) & V). apply app_eq_app in E. destruct E as (r & [(-> & E)|(-> & ->)]).
    + destruct r as [|r0 r]; cbn [app] in E.
      * exists (p ++ [c]), d, q. split; [|exact V]. subst l2. split; [rewrite app_nil_r, <- app_assoc; reflexivity|]. split; [exact Nd|].
        intros x I. apply in_app_or in I. destruct I as [I|[<-|[]]]; auto.
      * injection E as <- ->. exists p, d, (r ++ c :: l2). split; [|exact V]. split; [rewrite <- app_assoc; reflexivity|auto].
    + exists (l1 ++ c :: r), d, q. split; [|exact V]. split; [rewrite <- app_assoc; reflexivity|]. split; [exact Nd|].
      intros x I. apply in_app_or in I. destruct I as [I|[<-|I]]; [apply F, in_or_app; auto|exact N|apply F, in_or_app; auto].
  - intros H d I. apply in_app_or in I. destruct I as [I|[<-|I]]; [apply H, in_or_app; auto|exact N|apply H, in_or_app; auto].
Qed.
Lemma lookup_remove l1 l2 key c o : ~ named c key -> lookup (l1 ++ c :: l2) key o -> lookup (l1 ++ l2) key o.
Proof.
  intros N. destruct o as [t|]; cbn [lookup].
  - intros (p & d & q & (E & Nd & F) & V). apply app_eq_app in E. destruct E as (r & [(-> & E)|(-> & E)]).
    + destruct r as [|r0 r]; cbn [app] in E; injection E as <- ->; [contradiction|].
      exists p, d, (r ++ l2). split; [|exact V]. split; [rewrite <- app_assoc; reflexivity|auto].
    + destruct r as [|r0 r]; cbn [app] in E; injection E as <- ->; [contradiction|].
      exists (l1 ++ r), d, q. split; [|exact V]. split; [rewrite <- app_assoc; reflexivity|]. split; [exact Nd|].
      intros x I. apply F. apply in_app_or in I. apply in_or_app. destruct I; [auto|right; right; assumption].
  - intros H d I. apply H. apply in_app_or in I. apply in_or_app. destruct I; [auto|right; right; assumption].
Qed.
