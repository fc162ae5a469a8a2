(* Proofs for strings: words, distance, prefixes, blocks, cut. *)
From Coq Require Import Ascii.
From Verif Require Import Base StrModel StrSpec IndexProofs VecProofs ReduceProofs StrProofs.

Section Words.
Variable chars : str.

Lemma made_app : forall a b, made_of chars (a ++ b) <-> made_of chars a /\ made_of chars b.
Proof.
  intros. unfold made_of. split.
  - intros H. split; intros; apply H, in_or_app; auto.
  - intros [A B] c I. apply in_app_or in I. destruct I; auto.
Qed.

Lemma words_gap : forall g r ws, made_of chars g -> words_of chars r ws -> words_of chars (g ++ r) ws.
Proof.
  intros g r ws G W. destruct W.
  - constructor. apply made_app. auto.
  - rewrite app_assoc. constructor; auto. apply made_app. auto.
Qed.

Lemma words_nil : forall ws, words_of chars [] ws -> ws = [].
Proof.
  intros ws W. remember [] as s eqn:E. destruct W; auto.
  apply app_eq_nil in E. destruct E as [_ E]. apply app_eq_nil in E. destruct E. contradiction.
Qed.

Lemma words_none_inv : forall s, words_of chars s [] -> made_of chars s.
Proof. intros s W. inversion W; auto. Qed.

Lemma words_made : forall s ws, made_of chars s -> words_of chars s ws -> ws = [].
Proof.
  intros s ws M W. destruct W; auto. exfalso. apply made_app in M. destruct M as [_ M]. apply made_app in M.
  destruct M as [M _]. destruct w as [|c w]; [congruence|]. apply (H1 c); [now left|apply M; now left].
Qed.

Lemma first_at_skip : forall p a s i, (forall x, In x a -> p x = false) -> first_at p (a ++ s) i = first_at p s (i + length a).
Proof.
  induction a; intros s i H; cbn.
  - now rewrite Nat.add_0_r.
  - rewrite H by now left. rewrite IHa by (intros; apply H; now right). f_equal. lia.
Qed.

(* the first word of s, where the search from the end of u finds it *)
Lemma first_word : forall u g w r, made_of chars g -> w <> [] -> free_of chars w ->
  find_first (hasnt chars) (u ++ g ++ w ++ r) (Some (length u)) = Some (length u + length g).
Proof.
  intros u g w r G Nw F. cbn [find_first]. rewrite skipn_len_app, first_at_skip.
  - destruct w as [|c w]; [congruence|]. cbn. assert (hasnt chars c = true) as ->; auto.
    apply hasnt_In, F. now left.
  - intros x I. apply hasnt_false, G, I.
Qed.
Lemma word_end : forall u w r, free_of chars w -> (r = [] \/ exists c t, r = c :: t /\ In c chars) ->
  find_first (has chars) (u ++ w ++ r) (Some (length u)) =
    match r with [] => None | _ => Some (length u + length w) end.
Proof.
  intros u w r F R. cbn [find_first]. rewrite skipn_len_app, first_at_skip.
  - destruct R as [->|(c & t & -> & I)]; auto. cbn. apply has_In in I. now rewrite I.
  - intros x I. apply has_false, F, I.
Qed.

Lemma any_loop_ok : forall fuel u c t ret, length (c :: t) <= fuel -> ~ In c chars ->
  exists ws, any_loop fuel (u ++ c :: t) chars ret (Some (length u)) = Ok (ret ++ ws) /\ words_of chars (c :: t) ws.
Proof.
  induction fuel; intros u c t ret L Nc; [cbn in L; lia|].
  cbn [any_loop]. cbn [find_first]. rewrite skipn_len_app.
  pose proof (first_at_spec (has chars) (c :: t) (length u)) as H.
  destruct (first_at (has chars) (c :: t) (length u)) as [p|].
  - destruct H as (w & d & b & E & -> & Pd & Hw).
    destruct w as [|c' w]; [injection E as -> _; apply has_In in Pd; contradiction|].
    injection E as <- ->. set (w' := c :: w) in *.
    replace (length u + length w' - length u) with (length w') by lia.
    change (c :: w ++ d :: b) with (w' ++ d :: b) in *. rewrite substr_mid. cbn [obind].
    replace (u ++ w' ++ d :: b) with ((u ++ w') ++ d :: b) by now rewrite <- app_assoc.
    replace (length u + length w') with (length (u ++ w')) by now rewrite app_length.
    rewrite skipn_len_app.
    assert (Fw : free_of chars w') by (intros x I; apply has_false; auto).
    assert (R : d :: b = [] \/ (exists c0 t0, d :: b = c0 :: t0 /\ In c0 chars)) by (right; exists d, b; split; auto; now apply has_In).
    pose proof (first_at_spec (hasnt chars) (d :: b) (length (u ++ w'))) as H2.
    destruct (first_at (hasnt chars) (d :: b) (length (u ++ w'))) as [p2|].
    + destruct H2 as (g & e & b' & E2 & -> & Pe & Hg). rewrite E2.
      replace ((u ++ w') ++ g ++ e :: b') with (((u ++ w') ++ g) ++ e :: b') by now rewrite <- !app_assoc.
      replace (length (u ++ w') + length g) with (length ((u ++ w') ++ g)) by now rewrite !app_length.
      destruct (IHfuel ((u ++ w') ++ g) e b' (ret ++ [w'])) as (ws & Ew & W).
      { assert (length (d :: b) = length (g ++ e :: b')) by now rewrite E2.
        repeat rewrite app_length in *. unfold w' in *. cbn in *. repeat rewrite app_length in *. cbn in *. lia. }
      { now apply hasnt_In. }
      exists (w' :: ws). rewrite Ew, <- app_assoc. split; auto.
      apply (words_one chars [] w'); auto.
      * intros ? [].
      * discriminate.
      * rewrite <- E2. auto.
      * apply words_gap; auto. intros x I. apply hasnt_false. auto.
    + exists [w']. split.
      { destruct fuel; reflexivity. }
      apply (words_one chars [] w'); auto.
      * intros ? [].
      * discriminate.
      * constructor. intros x I. apply hasnt_false. auto.
  - rewrite substr_tail. cbn [obind]. exists [c :: t]. split; auto.
    rewrite <- (app_nil_r (c :: t)) at 1. apply (words_one chars [] (c :: t) [] []); auto.
    + intros ? [].
    + discriminate.
    + intros x I. apply has_false. auto.
    + constructor. intros ? [].
Qed.

Lemma split_any_ok : forall s, exists ws, split_any_of s chars = Ok ws /\ words_of chars s ws.
Proof.
  intros s. unfold split_any_of. cbn [find_first skipn].
  pose proof (first_at_spec (hasnt chars) s 0) as H. destruct (first_at (hasnt chars) s 0) as [k|].
  - destruct H as (g & c & b & -> & -> & Pc & Hg). cbn [Nat.add].
    destruct (any_loop_ok (length (g ++ c :: b)) g c b []) as (ws & E & W).
    + rewrite app_length. lia.
    + now apply hasnt_In.
    + exists ws. split; auto. apply words_gap; auto. intros x I. apply hasnt_false. auto.
  - exists []. split.
    + destruct s; reflexivity.
    + constructor. intros x I. apply hasnt_false. auto.
Qed.

(* the words are determined *)
Lemma words_first_inv : forall g w r g' w' r',
  made_of chars g -> w <> [] -> free_of chars w -> (r = [] \/ exists c t, r = c :: t /\ In c chars) ->
  made_of chars g' -> w' <> [] -> free_of chars w' -> (r' = [] \/ exists c t, r' = c :: t /\ In c chars) ->
  g ++ w ++ r = g' ++ w' ++ r' -> g = g' /\ w = w' /\ r = r'.
Proof.
  intros g w r g' w' r' G Nw F R G' Nw' F' R' E.
  pose proof (first_word [] g w r G Nw F) as A. pose proof (first_word [] g' w' r' G' Nw' F') as A'.
  cbn [app length] in A, A'. rewrite E in A. rewrite A in A'. injection A' as Lg.
  apply app_inj_length in E; [|auto]. destruct E as [-> E]. split; auto.
  pose proof (word_end [] w r F R) as B. pose proof (word_end [] w' r' F' R') as B'.
  cbn [app length] in B, B'. rewrite E in B. rewrite B in B'.
  assert (Lw : length w = length w').
  { apply (f_equal (@length _)) in E. rewrite !app_length in E.
    destruct r, r'; try discriminate; cbn in *; try lia. injection B' as B'. auto. }
  apply app_inj_length in E; auto.
Qed.

Lemma words_fun : forall s ws, words_of chars s ws -> forall ws', words_of chars s ws' -> ws = ws'.
Proof.
  intros s ws W. induction W; intros ws' W'.
  - symmetry. eapply words_made; eauto.
  - remember (g ++ w ++ r) as s eqn:E. destruct W' as [g' G'|g' w' r' ws' G' Nw' F' R' W'].
    + exfalso. assert (X : words_of chars (g ++ w ++ r) (w :: ws)) by (constructor; auto).
      rewrite <- E in X. apply words_made in X; auto. discriminate.
    + destruct (words_first_inv g w r g' w' r') as (-> & -> & ->); auto. f_equal. auto.
Qed.

(* get_word, n >= 0 *)
Lemma word_fwd_ok : forall n u r ws, words_of chars r ws ->
  match nth_error ws n with
  | Some w => exists x y, u ++ r = x ++ w ++ y /\
      word_fwd (S n) (u ++ r) chars (length u) = Ok (length x, match y with [] => None | _ => Some (length x + length w) end)
      /\ w <> [] /\ (x = [] -> u = [])
  | None => word_fwd (S n) (u ++ r) chars (length u) = CheckFail
  end.
Proof.
  induction n; intros u r ws W.
  - destruct W as [g G|g w r ws G Nw F R W]; cbn [nth_error].
    + cbn [word_fwd find_first]. rewrite skipn_len_app.
      pose proof (first_at_spec (hasnt chars) g (length u)) as H.
      destruct (first_at (hasnt chars) g (length u)); auto.
      destruct H as (a & c & b & -> & _ & Pc & _). apply hasnt_In in Pc. exfalso. apply Pc, G, in_or_app. right. now left.
    + exists (u ++ g), r. split; [now rewrite <- app_assoc|].
      cbn [word_fwd]. rewrite first_word by auto.
      replace (u ++ g ++ w ++ r) with ((u ++ g) ++ w ++ r) by now rewrite <- app_assoc.
      rewrite <- app_length. rewrite word_end by auto. split; auto. split; auto.
      intros E. apply app_eq_nil in E. tauto.
  - destruct W as [g G|g w r ws G Nw F R W]; cbn [nth_error].
    + cbn [word_fwd find_first]. rewrite skipn_len_app.
      pose proof (first_at_spec (hasnt chars) g (length u)) as H.
      destruct (first_at (hasnt chars) g (length u)); auto.
      destruct H as (a & c & b & -> & _ & Pc & _). apply hasnt_In in Pc. exfalso. apply Pc, G, in_or_app. right. now left.
    + change (word_fwd (S (S n)) (u ++ g ++ w ++ r) chars (length u)) with
        (match find_first (hasnt chars) (u ++ g ++ w ++ r) (Some (length u)) with
         | None => CheckFail
         | Some p1 => match find_first (has chars) (u ++ g ++ w ++ r) (Some p1) with
                      | None => CheckFail
                      | Some p2 => word_fwd (S n) (u ++ g ++ w ++ r) chars p2
                      end
         end).
      rewrite first_word by auto.
      replace (u ++ g ++ w ++ r) with ((u ++ g) ++ w ++ r) by now rewrite <- app_assoc.
      rewrite <- app_length. rewrite word_end by auto.
      destruct r as [|c r].
      * apply words_nil in W. subst ws. destruct n; reflexivity.
      * replace ((u ++ g) ++ w ++ c :: r) with ((u ++ g ++ w) ++ c :: r) by now rewrite <- !app_assoc.
        replace (length (u ++ g) + length w) with (length (u ++ g ++ w)) by (rewrite !app_length; lia).
        specialize (IHn (u ++ g ++ w) (c :: r) ws W). destruct (nth_error ws n); auto.
        destruct IHn as (x & y & E & Ew & Nl & Ex). exists x, y. split; auto. split; auto. split; auto.
        intros X. apply Ex in X. apply app_eq_nil in X. tauto.
Qed.

(* backwards *)
Lemma words_last : forall s ws, words_of chars s ws -> forall ws' w, ws = ws' ++ [w] ->
  exists l g, s = l ++ w ++ g /\ made_of chars g /\ w <> [] /\ free_of chars w /\ words_of chars l ws' /\
    (l = [] \/ exists t c, l = t ++ [c] /\ In c chars).
Proof.
  intros s ws W. induction W as [g G|g w r ws G Nw F R W IH]; intros ws' v E.
  - destruct ws'; discriminate.
  - destruct ws' as [|w0 ws'].
    + injection E as <- ->. exists g, r.
      assert (made_of chars r).
      { now apply words_none_inv. }
      split; auto. split; auto. split; auto. split; auto. split; [now constructor|].
      destruct g as [|x g]; auto. right. destruct (exists_last (l := x :: g)) as (t & c & Et); [discriminate|].
      exists t, c. split; auto. apply G. rewrite Et. apply in_or_app. right. now left.
    + injection E as <- ->. destruct (IH ws' v eq_refl) as (l & g' & -> & G' & Nv & Fv & Wl & El).
      exists (g ++ w ++ l), g'. split; [now rewrite <- !app_assoc|]. split; auto. split; auto. split; auto.
      assert (l <> []).
      { intros ->. apply words_nil in Wl. subst. cbn in R.
        destruct R as [R|(c & t & R & I)].
        - destruct v; [congruence|discriminate].
        - destruct v as [|v0 v]; [congruence|]. injection R as -> _. apply (Fv c); auto. now left. }
      split.
      * constructor; auto. right. destruct l as [|c l]; [congruence|].
        destruct R as [R|(c' & t & R & I)]; [discriminate|]. injection R as -> _. eauto.
      * right. destruct El as [El|(t & c & -> & I)]; [congruence|].
        exists (g ++ w ++ t), c. split; auto. now rewrite <- !app_assoc.
Qed.

Lemma last_at_skip : forall p b s i acc, (forall x, In x b -> p x = false) ->
  last_at p (s ++ b) i acc = last_at p s i acc.
Proof.
  intros p b s. revert b. induction s; intros b i acc H; cbn.
  - revert i acc. induction b; intros; cbn; auto. rewrite H by now left. apply IHb. intros. apply H. now right.
  - auto.
Qed.
Lemma last_at_hit : forall p a c i acc, p c = true -> last_at p (a ++ [c]) i acc = Some (i + length a).
Proof.
  induction a; intros c i acc H; cbn.
  - rewrite H. f_equal. lia.
  - rewrite IHa by auto. f_equal. lia.
Qed.
Lemma last_at_none : forall p s i, (forall x, In x s -> p x = false) -> last_at p s i None = None.
Proof. intros. rewrite <- (app_nil_l s). now rewrite last_at_skip. Qed.

Lemma free_last : forall w, w <> [] -> free_of chars w -> exists w0 c, w = w0 ++ [c] /\ ~ In c chars.
Proof.
  intros w N F. destruct (exists_last N) as (w0 & c & ->). exists w0, c. split; auto.
  apply F. apply in_or_app. right. now left.
Qed.

Lemma word_bwd_ok : forall n l y p1 ws, words_of chars l ws ->
  (p1 = None /\ y = [] \/ p1 = Some (length l - 1) /\ l <> []) ->
  match nth_error (rev ws) n with
  | Some w => exists a b, l = a ++ w ++ b /\ w <> [] /\
      word_bwd (S n) (l ++ y) chars p1 =
        Ok (match a with [] => None | _ => Some (length a - 1) end, length a + length w - 1)
  | None => word_bwd (S n) (l ++ y) chars p1 = CheckFail
  end.
Proof.
  induction n; intros l y p1 ws W P.
  all: assert (FL : forall p, find_last p (l ++ y) p1 = last_at p l 0 None)
    by (intros p; unfold find_last; destruct P as [(-> & ->)|(-> & Nl)];
        [now rewrite app_nil_r|
         replace (length l - 1 + 1) with (length l) by (destruct l; [congruence|cbn; lia]); now rewrite firstn_len_app]).
  all: destruct (list_eq_dec (list_eq_dec ascii_dec) ws []) as [->|Nws].
  - cbn [rev nth_error word_bwd]. rewrite FL, last_at_none; auto.
    intros x I. apply hasnt_false. apply words_none_inv in W. auto.
  - destruct (exists_last Nws) as (ws' & w & ->). rewrite rev_app_distr. cbn [rev app nth_error].
    destruct (words_last l _ W ws' w eq_refl) as (a & g & -> & G & Nw & F & Wa & Ea).
    destruct (free_last w Nw F) as (w0 & c & Ew & Nc).
    exists a, g. split; auto. split; auto. cbn [word_bwd]. rewrite FL.
    rewrite app_assoc, last_at_skip by (intros x I; apply hasnt_false; auto).
    rewrite Ew, app_assoc, last_at_hit by now apply hasnt_In. cbn [Nat.add].
    unfold find_last.
    replace (firstn (length (a ++ w0) + 1) ((((a ++ w0) ++ [c]) ++ g) ++ y)) with (a ++ w).
    2:{ replace (length (a ++ w0) + 1) with (length (a ++ w)) by (rewrite Ew, !app_length; cbn; lia).
        rewrite <- (app_assoc a w0), <- Ew, <- app_assoc. now rewrite firstn_len_app. }
    rewrite last_at_skip by (intros x I; apply has_false; auto).
    do 2 f_equal; [|rewrite !app_length; cbn; lia].
    destruct Ea as [->|(t & d & -> & I)]; auto.
    rewrite last_at_hit by now apply has_In. destruct (t ++ [d]) eqn:Et; [destruct t; discriminate|].
    rewrite <- Et, app_length. cbn. f_equal. lia.
  - cbn [rev nth_error word_bwd]. rewrite FL, last_at_none; auto.
    intros x I. apply hasnt_false. apply words_none_inv in W. auto.
  - destruct (exists_last Nws) as (ws' & w & ->). rewrite rev_app_distr. cbn [rev app nth_error].
    destruct (words_last l _ W ws' w eq_refl) as (a & g & -> & G & Nw & F & Wa & Ea).
    destruct (free_last w Nw F) as (w0 & c & Ew & Nc).
    change (word_bwd (S (S n)) ((a ++ w ++ g) ++ y) chars p1) with
        (match find_last (hasnt chars) ((a ++ w ++ g) ++ y) p1 with
         | None => CheckFail
         | Some p2 => match find_last (has chars) ((a ++ w ++ g) ++ y) (Some p2) with
                      | None => CheckFail
                      | Some p1 => word_bwd (S n) ((a ++ w ++ g) ++ y) chars (Some p1)
                      end
         end).
    rewrite FL.
    rewrite (app_assoc a w g), last_at_skip by (intros x I; apply hasnt_false; auto).
    assert (LH : last_at (hasnt chars) (a ++ w) 0 None = Some (length (a ++ w0))).
    { rewrite Ew, app_assoc, last_at_hit by now apply hasnt_In. auto. }
    rewrite LH. unfold find_last.
    replace (firstn (length (a ++ w0) + 1) (((a ++ w) ++ g) ++ y)) with (a ++ w).
    2:{ replace (length (a ++ w0) + 1) with (length (a ++ w)) by (rewrite Ew, !app_length; cbn; lia).
        rewrite <- app_assoc. now rewrite firstn_len_app. }
    rewrite last_at_skip by (intros x I; apply has_false; auto).
    destruct Ea as [->|(t & d & Ea & I)].
    + apply words_nil in Wa. subst ws'. destruct n; reflexivity.
    + rewrite Ea, last_at_hit by now apply has_In. cbn [Nat.add]. rewrite <- Ea.
      replace (((a ++ w) ++ g) ++ y) with (a ++ (w ++ g ++ y)) by now rewrite <- !app_assoc.
      assert (La : length t = length a - 1) by (rewrite Ea, app_length; cbn; lia).
      rewrite La. specialize (IHn a (w ++ g ++ y) (Some (length a - 1)) ws' Wa).
      destruct (nth_error (rev ws') n) as [v|].
      * destruct IHn as (a' & b' & E & Nv & Ev).
        { right. split; auto. rewrite Ea. destruct t; discriminate. }
        exists a', (b' ++ w ++ g). split; [rewrite E, <- !app_assoc; auto|]. split; auto.
      * apply IHn. right. split; auto. rewrite Ea. destruct t; discriminate.
Qed.
End Words.
