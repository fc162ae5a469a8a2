From Coq Require Import Ascii String.
From Verif Require Import Base StrModel StrSpec StrProofs ArgvModel ArgvSpec ArgvProofs ArgvProofs2 ArgvProofs3.
Local Open Scope nat_scope.

(* characters without a meaning for the shell, except the blanks *)
Definition plain (s : list ascii) : Prop := forall c, In c s -> ~ In c shell_special /\ c <> """"%char.
Definition quoted (tmp : list ascii) : list ascii :=
  if existsb is_gap tmp then
    match after "="%char tmp with
    | None => lit """" ++ tmp ++ lit """"
    | Some v => before "="%char tmp ++ lit "=" ++ lit """" ++ v ++ lit """"
    end
  else tmp.
Lemma has_gap : forall s i, match first_at (has (lit " " ++ ["009"%char])) s i with None => false | Some _ => true end = existsb is_gap s.
Proof.
  induction s as [|c s IH]; intros i; auto. cbn [first_at existsb].
  assert (E : has (lit " " ++ ["009"%char]) c = is_gap c).
  { unfold is_gap. destruct (in_dec ascii_dec c [" "%char; "009"%char]) as [I|N].
    - apply has_In. exact I. - apply has_false. exact N. }
  rewrite E. destruct (is_gap c); auto.
Qed.
Lemma make_cmdE : forall prog argv,
  make_cmd prog argv = Ok (prog ++ concat (map (fun a => lit " " ++ quoted a) argv)).
Proof.
  intros prog argv. unfold make_cmd. revert prog. induction argv as [|a argv IH]; intros prog; cbn [ofold map concat].
  - now rewrite app_nil_r.
  - match goal with |- obind ?x _ = _ => replace x with (Ok (prog ++ lit " " ++ quoted a)) end.
    + cbn [obind]. rewrite IH. now rewrite <- !app_assoc.
    + symmetry. unfold quoted. cbn [find_first skipn]. pose proof (has_gap a 0) as G.
      destruct (first_at (has (lit " " ++ ["009"%char])) a 0); rewrite <- G; [|reflexivity].
      rewrite find_charE. destruct (after "="%char a) as [v|] eqn:A; [|reflexivity].
      pose proof (after_some _ _ _ A) as E. set (b := before "="%char a) in *. clearbody b. rewrite E.
      assert (X : substr (b ++ "="%char :: v) 0 (length b + 1) = Ok (b ++ ["="%char])).
      { pose proof (substr_mid [] (b ++ ["="%char]) v) as M. cbn [app length] in M.
        rewrite app_length in M. cbn [length] in M. rewrite <- app_assoc in M. exact M. }
      rewrite X. cbn [obind]. rewrite substr_after. cbn [obind]. rewrite <- !app_assoc. reflexivity.
Qed.

Definition grown (word : option (list ascii)) (w : list ascii) : option (list ascii) :=
  match w with [] => word | _ => Some (match word with Some x => x | None => [] end ++ w) end.
Lemma grown_grown : forall word a b, grown (grown word a) b = grown word (a ++ b).
Proof.
  intros word [|x a] b; auto. destruct b as [|y b]; cbn [grown app].
  - now rewrite app_nil_r. - now rewrite <- app_assoc.
Qed.
Lemma words_plain : forall w s q word, plain w -> (q = true \/ existsb is_gap w = false) ->
  shell_words (w ++ s) q word = shell_words s q (grown word w).
Proof.
  induction w as [|c w IH]; intros s q word P G; auto. cbn [app shell_words].
  destruct (P c) as [N1 N2]; [now left|].
  destruct (in_dec ascii_dec c shell_special); [contradiction|]. destruct (ascii_dec c """"%char); [contradiction|].
  assert (E : is_gap c && negb q = false).
  { destruct G as [->|G]; [apply Bool.andb_false_r|]. cbn in G. apply Bool.orb_false_iff in G. destruct G as [-> _]. auto. }
  rewrite E, IH.
  - change (c :: w) with ([c] ++ w). now rewrite <- grown_grown.
  - intros x I. apply P. now right.
  - destruct G as [G|G]; auto. right. cbn in G. now apply Bool.orb_false_iff in G.
Qed.
Lemma words_quote : forall s q word,
  shell_words (lit """" ++ s) q word = shell_words s (negb q) (Some (match word with Some w => w | None => [] end)).
Proof. reflexivity. Qed.
Lemma plain_app : forall a b, plain (a ++ b) -> plain a /\ plain b.
Proof. intros a b P. split; intros c I; apply P, in_or_app; auto. Qed.
Lemma words_quoted : forall a s, plain a -> a <> [] -> (match after "="%char a with Some _ => existsb is_gap (before "="%char a) = false | None => True end) ->
  shell_words (quoted a ++ s) false None = shell_words s false (Some a).
Proof.
  intros a s P N G. unfold quoted. destruct (existsb is_gap a) eqn:E.
  - destruct (after "="%char a) as [v|] eqn:A.
    + pose proof (after_some _ _ _ A) as Ea. set (b := before "="%char a) in *. clearbody b.
      rewrite Ea in P. destruct (plain_app _ _ P) as [Pb Pv].
      assert (Pe : plain (lit "=")).
      { intros c [<-|[]]. cbn. split; [intuition discriminate|discriminate]. }
      assert (Pv' : plain v) by (intros c I; apply Pv; now right).
      rewrite <- !app_assoc. rewrite words_plain by auto. rewrite words_plain by (auto; right; reflexivity).
      rewrite words_quote. cbn [negb]. rewrite words_plain by auto. rewrite words_quote. cbn [negb].
      rewrite Ea. f_equal. cbn [lit list_ascii_of_string]. destruct b as [|x b], v as [|y v]; cbn [grown app]; try rewrite app_nil_r; f_equal.
      now rewrite <- !app_assoc.
    + rewrite <- !app_assoc, words_quote. cbn [negb]. rewrite words_plain by auto. rewrite words_quote. cbn [negb].
      destruct a; [tauto|]. reflexivity.
  - rewrite words_plain by auto. destruct a; [tauto|]. reflexivity.
Qed.
Lemma words_cmd : forall argv prog, 
  (forall a, In a argv -> a <> [] /\ plain a /\ (match after "="%char a with Some _ => existsb is_gap (before "="%char a) = false | None => True end)) ->
  shell_words (concat (map (fun a => lit " " ++ quoted a) argv)) false (Some prog) = Some (prog :: argv).
Proof.
  induction argv as [|a argv IH]; intros prog H; auto. cbn [map concat lit list_ascii_of_string app shell_words].
  destruct (in_dec ascii_dec " "%char shell_special) as [I|_]; [exfalso; cbn in I; intuition discriminate|].
  destruct (ascii_dec " "%char """"%char); [discriminate|].
  change (is_gap " "%char) with true. cbn [andb negb].
  destruct (H a) as (Na & Pa & Ga); [now left|]. change list_ascii_of_string with lit.
  rewrite words_quoted by auto. rewrite IH; auto.
  intros x Ix. apply H. now right.
Qed.
Lemma make_cmd_words : forall prog argv, prog <> [] -> plain prog -> existsb is_gap prog = false ->
  (forall a, In a argv -> a <> [] /\ plain a /\ (match after "="%char a with Some _ => existsb is_gap (before "="%char a) = false | None => True end)) ->
  exists cmd, make_cmd prog argv = Ok cmd /\ shell_words cmd false None = Some (prog :: argv).
Proof.
  intros prog argv N P G H. eexists. split; [apply make_cmdE|]. rewrite words_plain by auto.
  destruct prog; [tauto|]. cbn [grown app]. now apply words_cmd.
Qed.
