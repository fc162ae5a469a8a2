(* Proofs on the choice of sections and bands. *)
From Coq Require Import Ascii String Lia.
From Verif Require Import Base StrModel PathModel SectModel SectSpec.
From Verif Require OrderModel OrderSpec OrderProofs RegModel RegSpec RegProofs StrProofs3.
Local Open Scope list_scope.
Local Open Scope nat_scope.

Lemma lines_from_app cur l s : ~ In newline l -> lines_from cur (l ++ newline :: s) = (cur ++ l) :: lines_from [] s.
Proof.
  revert cur. induction l as [|c l IH]; intros cur N; cbn [app lines_from].
  - rewrite Ascii.eqb_refl, app_nil_r. reflexivity.
  - destruct (Ascii.eqb_spec c newline) as [->|D]; [exfalso; apply N; left; reflexivity|]. rewrite IH by (intros I; apply N; right; exact I).
    rewrite <- app_assoc. reflexivity.
Qed.
Lemma lines_from_end cur l : ~ In newline l -> lines_from cur l = match cur ++ l with [] => [] | x => [x] end.
Proof.
  revert cur. induction l as [|c l IH]; intros cur N; cbn [lines_from].
  - rewrite app_nil_r. destruct cur; reflexivity.
  - destruct (Ascii.eqb_spec c newline) as [->|D]; [exfalso; apply N; left; reflexivity|]. rewrite IH by (intros I; apply N; right; exact I).
    rewrite <- app_assoc. reflexivity.
Qed.
Lemma lines_ok ls s : text_of ls s -> lines s = ls.
Proof.
  unfold lines. induction 1 as [|l E N|l ls s N T IH]; [reflexivity| |].
  - rewrite lines_from_end by exact N. cbn [app]. destruct l; [contradiction|reflexivity].
  - change "010"%char with newline. rewrite lines_from_app by exact N. rewrite IH. reflexivity.
Qed.
Lemma text_total s : exists ls, text_of ls s.
Proof.
  assert (G : forall s, exists l rest, s = l ++ rest /\ ~ In newline l /\ (rest = [] \/ exists r, rest = newline :: r)).
  { clear s. induction s as [|c s' (l & rest & E & N & R)]; [exists [], []; split; [reflexivity|]; split; [intros []|left; reflexivity]|].
    destruct (Ascii.eqb_spec c newline) as [->|D].
    - exists [], (newline :: s'). split; [reflexivity|]. split; [intros []|right; eauto].
    - exists (c :: l), rest. split; [cbn; rewrite E; reflexivity|]. split; [intros [I|I]; [congruence|contradiction]|exact R]. }
  remember (List.length s) as n eqn:Hn. revert s Hn. induction n as [n IH] using lt_wf_ind. intros s ->.
  destruct (G s) as (l & rest & E & N & [->|(r & ->)]).
  - rewrite app_nil_r in E. subst l. destruct s as [|c s]; [exists []; constructor|]. exists [c :: s]. apply text_last; [discriminate|exact N].
  - destruct (IH (List.length r)) with (s := r) as (ls & T); [subst s; rewrite app_length; cbn; lia|reflexivity|].
    exists (l :: ls). rewrite E. apply text_line; assumption.
Qed.
Lemma named_ok l : named l = true <-> names l.
Proof.
  unfold named, names. destruct l as [|c l]; split.
  - discriminate. - intros [H _]. contradiction.
  - intros H. split; [discriminate|]. intros r E. injection E as -> _. cbn in H. discriminate.
  - intros [_ H]. destruct (Ascii.eqb_spec c "#"%char) as [->|D]; [exfalso; exact (H l eq_refl)|reflexivity].
Qed.
Lemma chosen_ok ls r : chosen ls r <-> filter named ls = r.
Proof.
  split.
  - induction 1 as [|l ls r N C IH|l ls r N C IH]; [reflexivity| |]; cbn [filter].
    + rewrite (proj2 (named_ok l) N), IH. reflexivity.
    + destruct (named l) eqn:E; [apply named_ok in E; contradiction|exact IH].
  - intros <-. induction ls as [|l ls IH]; [constructor|]. cbn [filter]. destruct (named l) eqn:E.
    + apply chosen_yes; [apply named_ok; exact E|exact IH].
    + apply chosen_no; [rewrite <- named_ok, E; discriminate|exact IH].
Qed.

(* bands *)
Lemma vec_place bands p i : nth_error (RegModel.regex_match_vec bands p) i = Some true <-> at_place (found_in p) bands i.
Proof.
  unfold RegModel.regex_match_vec, at_place. rewrite nth_error_map. destruct (nth_error bands i) as [s|]; cbn [option_map].
  - split.
    + intros E. injection E as E. apply RegProofs.match_ok in E. exists s. split; [reflexivity|exact E].
    + intros (t & E & F). injection E as <-. f_equal. apply RegProofs.match_ok. exact F.
  - split; [discriminate|intros (t & E & _); discriminate].
Qed.
Lemma ordered_two {a b : nat} {l} : OrderSpec.ordered lt (a :: b :: l) -> a < b.
Proof. intros S. apply (S 0 1); [lia|reflexivity|reflexivity]. Qed.
Lemma choose_ok m show bid : (forall i, nth_error m i = Some true -> show i = Ok tt) ->
  (forall i, the_only (fun k => nth_error m k = Some true) i -> choose (OrderModel.where_ m) show bid = Ok (true, i)) /\
  ((forall i, ~ the_only (fun k => nth_error m k = Some true) i) -> choose (OrderModel.where_ m) show bid = Ok (false, bid)).
Proof.
  intros Sh. pose proof (OrderProofs.where_sorted m) as So. pose proof (OrderProofs.where_in m) as I. destruct (OrderModel.where_ m) as [|a [|b l]] eqn:E.
  - split; [|reflexivity]. intros i [K _]. apply I in K. destruct K.
  - split.
    + intros i [K _]. apply I in K. destruct K as [->|[]]. reflexivity.
    + intros N. exfalso. apply (N a). split; [apply I; left; reflexivity|]. intros j J. apply I in J. destruct J as [->|[]]. reflexivity.
  - pose proof (ordered_two So) as L. split.
    + intros i [_ K]. assert (A : a = i) by (apply K, I; left; reflexivity). assert (B : b = i) by (apply K, I; right; left; reflexivity). lia.
    + intros _. cbn [choose].
      assert (G : forall l', (forall i, In i l' -> show i = Ok tt) -> omapl show l' = Ok (map (fun _ => tt) l')).
      { induction l' as [|x l' IH]; intros Hs; [reflexivity|]. cbn [omapl map]. rewrite (Hs x (or_introl eq_refl)). cbn [obind]. rewrite IH by (intros y Y; apply Hs; right; exact Y). reflexivity. }
      rewrite G by (intros i J; apply Sh, I; exact J). reflexivity.
Qed.
Lemma at_checked_ok {A} (v : list A) i : i < List.length v -> ignore (at_checked v i) = Ok tt.
Proof.
  intros L. unfold ignore, at_checked. rewrite (proj2 (Nat.ltb_lt _ _) L). cbn [check obind]. unfold oget.
  destruct (nth_error v i) eqn:E; [reflexivity|]. apply nth_error_None in E. lia.
Qed.
