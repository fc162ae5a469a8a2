(* C118: regular expressions. *)
From Coq Require Import Ascii String Lia.
From Verif Require Import Base RegModel RegSpec RegProofs.
Local Open Scope list_scope.
Local Open Scope nat_scope.

(* A text matches if the pattern describes some part of it, at the ends that the anchors ask for. *)
Theorem C118_match : forall s p, regex_match s p = true <-> exists x m y, s = x ++ m ++ y /\ occurs p x m y.
Proof. exact match_ok. Qed.
Print Assumptions C118_match.
(* An array of texts, or of patterns, is taken one element at a time. *)
Theorem C118_vector : forall l p s ps, length (regex_match_vec l p) = length l /\ length (regex_match_pats s ps) = length ps /\
  (forall i t, nth_error l i = Some t -> exists b, nth_error (regex_match_vec l p) i = Some b /\
     (b = true <-> exists x m y, t = x ++ m ++ y /\ occurs p x m y)) /\
  (forall i q, nth_error ps i = Some q -> exists b, nth_error (regex_match_pats s ps) i = Some b /\
     (b = true <-> exists x m y, s = x ++ m ++ y /\ occurs q x m y)).
Proof.
  intros l p s ps. unfold regex_match_vec, regex_match_pats. rewrite !map_length. repeat split.
  - intros i t E. exists (regex_match t p). split; [rewrite nth_error_map, E; reflexivity|apply match_ok].
  - intros i q E. exists (regex_match s q). split; [rewrite nth_error_map, E; reflexivity|apply match_ok].
Qed.
Print Assumptions C118_vector.
(* The match is the longest of those that begin first. *)
Theorem C118_search : forall p s i j, search p s = Some (i, j) <->
  exists x m y, s = x ++ m ++ y /\ first_longest p x m y /\ i = length x /\ j = length x + length m.
Proof. exact search_ok. Qed.
Print Assumptions C118_search.

(* regex_extract gives one row for each match, with the text of each group, or nothing for a group that is not in
   the match; matches must not be empty. *)
Theorem C118_extract : forall exec nm ts, sound exec -> (forall s so eo gs, exec s = Some ((so, eo), gs) -> 0 < eo) ->
  (Z.of_nat (length ts) < two64)%Z -> 0 < nm ->
  exists l z, scan exec nm ts l z /\ regex_extract exec nm ts = Ok (map snd l) /\ Forall (fun row => length row = nm) (map snd l).
Proof.
  intros exec nm ts S A B N. unfold regex_extract. destruct (Nat.eqb_spec nm 0); [lia|].
  destruct (extract_run exec nm S A ts B (Datatypes.S (length ts)) 0 []) as (l & z & R & E); [lia|lia|]. exists l, z. split; [exact R|]. split; [exact E|].
  clear - R. change (skipn 0 ts) with ts in R. induction R; cbn [map snd]; constructor; [|assumption].
  unfold texts. rewrite map_length, seq_length. reflexivity.
Qed.
Print Assumptions C118_extract.
(* regex_replace gives the text with every match replaced by the value of the function for its groups, all
   of which must be in the match. *)
Theorem C118_replace : forall exec nm func ts, sound exec -> (forall s so eo gs, exec s = Some ((so, eo), gs) -> 0 < eo) ->
  (forall s m gs, exec s = Some (m, gs) -> forall i, i < nm -> exists a b, nth_error gs i = Some (Some (a, b))) ->
  (Z.of_nat (length ts) < two64)%Z ->
  exists l z, scan exec nm ts l z /\ regex_replace exec nm func ts = Ok (concat (map (fun p => fst p ++ func (snd p)) l) ++ z).
Proof.
  intros exec nm func ts S A G B. destruct (replace_run exec nm S A func G ts B (Datatypes.S (length ts)) 0 []) as (l & z & R & E); [lia|lia|].
  exists l, z. split; [exact R|exact E].
Qed.
Print Assumptions C118_replace.
(* The matches are determined by regexec. *)
Theorem C118_unique : forall exec nm s l z l' z', scan exec nm s l z -> scan exec nm s l' z' -> l = l' /\ z = z'.
Proof. intros. eapply scan_fun; eauto. Qed.
Print Assumptions C118_unique.
(* A pattern without groups and not held at the beginning: every occurrence is replaced, from left to right. *)
Theorem C118_constant : forall p w ts, bol p = false -> ~ lang (body p) [] -> (Z.of_nat (length ts) < two64)%Z ->
  exists r, regex_replace (exec_of p) 0 (fun _ => w) ts = Ok r /\ swapped p w ts r.
Proof.
  intros p w ts Bp NE B.
  destruct (C118_replace (exec_of p) 0 (fun _ => w) ts (exec_of_sound p)) as (l & z & R & E).
  - intros s so eo gs H. unfold exec_of in H. destruct (search p s) as [[i j]|] eqn:F; [|discriminate]. cbn in H. injection H as <- <- <-.
    apply search_ok in F. destruct F as (x & m & y & _ & ((L & _) & _) & -> & ->). destruct m; [contradiction|cbn; lia].
  - intros; lia.
  - exact B.
  - eexists. split; [exact E|]. clear - R. induction R as [s E|x m y gs l z E R IH].
    + cbn [map concat app]. constructor. unfold exec_of in E. destruct (search p s) eqn:F; [discriminate|]. exact (search_none _ _ _ F).
    + cbn [map concat fst snd]. rewrite <- !app_assoc. constructor; [|exact IH]. unfold exec_of in E.
      destruct (search p (x ++ m ++ y)) as [[i j]|] eqn:F; [|discriminate]. cbn in E. injection E as -> -> <-.
      apply search_ok in F. destruct F as (x' & m' & y' & S & F & Lx & Lm).
      assert (X : x = x'). { apply (f_equal (firstn (length x))) in S. rewrite firstn_app_ in S. rewrite Lx, firstn_app_ in S. exact S. }
      subst x'. apply app_inv_head in S. assert (Lm' : length m = length m') by lia.
      assert (M : m = m'). { apply (f_equal (firstn (length m))) in S. rewrite firstn_app_ in S. rewrite Lm', firstn_app_ in S. exact S. }
      subst m'. apply app_inv_head in S. subst y'. exact F.
Qed.
Print Assumptions C118_constant.
(* The groups are counted right in a pattern without brackets and without two backslashes in a row. *)
Theorem C118_groups : forall r, ~ In "["%char r -> (forall a b, r <> a ++ "\"%char :: "\"%char :: b) -> find_nmatch r = group_count Outside r.
Proof.
  intros r N E. apply (group_count_flat r N [] false E). split; [discriminate|]. intros (u & H). destruct u; discriminate.
Qed.
Print Assumptions C118_groups.

(* --- examples -------------------------------------------------------------------- *)
Definition digit (c : ascii) : bool := (48 <=? nat_of_ascii c) && (nat_of_ascii c <=? 57).
Definition number := Pattern false (Plus (Chars digit)) false.
Example ex_search : search number (lit "ab123c4") = Some (2, 5). Proof. vm_compute. reflexivity. Qed.
Example ex_match : regex_match_vec [lit "a1"; lit "ab"] number = [true; false] /\ regex_match (lit "a1") (Pattern true (Plus (Chars digit)) true) = false.
Proof. vm_compute. split; reflexivity. Qed.
Example ex_replace : regex_replace (exec_of number) 0 (fun _ => lit "#") (lit "ab12c4d") = Ok (lit "ab#c#d"). Proof. vm_compute. reflexivity. Qed.
(* regexec for the pattern (x)|y *)
Definition exec_xy (s : list ascii) : option found :=
  match search (Pattern false (Alt (Text "x") (Text "y")) false) s with
  | Some (i, j) => Some ((i, j), [if regex_match (firstn 1 (skipn i s)) (Pattern true (Text "x") true) then Some (i, j) else None])
  | None => None
  end.
Example ex_extract : regex_extract exec_xy 1 (lit "axby") = Ok [[lit "x"]; [[]]]. Proof. vm_compute. reflexivity. Qed.
Example ex_groups : find_nmatch (lit "(a)\((b)") = 2. Proof. vm_compute. reflexivity. Qed.

(* Finding: with a pattern that an empty text matches, regex_replace never ends, whatever the text is: an
   empty match does not move the search forward. *)
Theorem C118_empty_diverges : forall p func ts, lang (body p) [] -> bol p && eol p = false -> (Z.of_nat (length ts) < two64)%Z ->
  regex_replace (exec_of p) 0 func ts = Diverge.
Proof.
  intros p func ts L A B. unfold regex_replace.
  assert (G : forall fuel off s, off <= length ts -> replace_loop (exec_of p) 0 func fuel ts off s = Diverge).
  { induction fuel as [|fuel IH]; intros off s O; [reflexivity|]. cbn [replace_loop]. unfold exec_of.
    destruct (search p (skipn off ts)) as [[i j]|] eqn:F.
    - cbn [option_map]. apply search_ok in F. destruct F as (x & m & y & S & _ & -> & ->).
      assert (Ls : length (skipn off ts) = length x + (length m + length y)) by (rewrite S, !app_length; reflexivity). rewrite skipn_length in Ls.
      rewrite sub_ok by lia. cbn [obind seq omapl]. destruct (length x + length m =? 0); [reflexivity|]. apply IH. lia.
    - exfalso. destruct (bol p) eqn:Bp.
      + apply (search_none _ _ _ F [] [] (skipn off ts) eq_refl). split; [exact L|]. split; [reflexivity|]. intros Ep. cbn in A. congruence.
      + apply (search_none _ _ _ F (skipn off ts) [] []); [rewrite app_nil_r; reflexivity|]. split; [exact L|]. split; [congruence|reflexivity]. }
  apply G. lia.
Qed.
Print Assumptions C118_empty_diverges.
(* Finding: neither does regex_extract if the first match ends where the text begins. *)
Theorem C118_extract_empty_diverges : forall exec nm ts so gs, sound exec -> exec ts = Some ((so, 0), gs) -> 0 < nm -> (Z.of_nat (length ts) < two64)%Z ->
  regex_extract exec nm ts = Diverge.
Proof.
  intros exec nm ts so gs S E N B. unfold regex_extract. destruct (Nat.eqb_spec nm 0); [lia|]. cbn [extract_loop]. change (skipn 0 ts) with ts. rewrite E.
  destruct (S _ _ _ _ E) as [_ F].
  rewrite (omapl_all _ (group_text ts gs)); [reflexivity|]. intros i _. unfold group, group_text. destruct (nth_error gs i) as [[[a b]|]|] eqn:X; try reflexivity.
  pose proof (proj1 (Forall_forall _ _) F _ (nth_error_In _ _ X)) as In. cbn in In. destruct (Z.ltb_spec (Z.of_nat a) (Z.of_nat b)).
  - change (Z.of_nat 0 + Z.of_nat a)%Z with (Z.of_nat a). rewrite <- Nat2Z.inj_sub by lia. apply sub_ok; lia.
  - replace (b - a) with 0 by lia. reflexivity.
Qed.
Print Assumptions C118_extract_empty_diverges.
(* a pattern without groups extracts nothing, and is not even looked for *)
Theorem C118_extract_no_groups : forall exec ts, regex_extract exec 0 ts = Ok [].
Proof. reflexivity. Qed.
Print Assumptions C118_extract_no_groups.
(* Finding: in regex_replace, a group that takes no part in a match at the beginning of the text has the
   position -1, and substr throws. *)
Theorem C118_absent_throws : forall exec nm func ts so eo gs i, exec ts = Some ((so, eo), gs) -> so <= length ts -> Forall (inside (length ts)) gs ->
  i < nm -> (forall g, nth_error gs i = Some g -> g = None) -> (Z.of_nat (length ts) < two64 - 1)%Z ->
  regex_replace exec nm func ts = Throws.
Proof.
  intros exec nm func ts so eo gs i E Hs F I N B. unfold regex_replace. cbn [replace_loop]. change (skipn 0 ts) with ts. rewrite E.
  rewrite sub_ok by lia. cbn [obind].
  assert (G : group gs i = (-1, -1)%Z). { unfold group. destruct (nth_error gs i) as [[[a b]|]|] eqn:X; try reflexivity. specialize (N _ eq_refl). discriminate. }
  assert (T : forall k n, k <= i < k + n -> omapl (fun i => let '(a, b) := group gs i in sub ts (Z.of_nat 0 + a) (b - a)) (seq k n) = Throws).
  { intros k n. revert k. induction n as [|n IH]; intros k K; [lia|]. cbn [seq omapl].
    destruct (Nat.eq_dec k i) as [->|D].
    - rewrite G. unfold sub. change (wrap64 (Z.of_nat 0 + -1)) with (two64 - 1)%Z. destruct (Z.ltb_spec (Z.of_nat (length ts)) (two64 - 1)); [reflexivity|lia].
    - rewrite IH by lia. unfold group. destruct (nth_error gs k) as [[[a b]|]|] eqn:X.
      + pose proof (proj1 (Forall_forall _ _) F _ (nth_error_In _ _ X)) as In. cbn in In. change (Z.of_nat 0 + Z.of_nat a)%Z with (Z.of_nat a).
        rewrite <- Nat2Z.inj_sub by lia. rewrite sub_ok by lia. reflexivity.
      + unfold sub. change (wrap64 (Z.of_nat 0 + -1)) with (two64 - 1)%Z. destruct (Z.ltb_spec (Z.of_nat (length ts)) (two64 - 1)); [reflexivity|lia].
      + unfold sub. change (wrap64 (Z.of_nat 0 + -1)) with (two64 - 1)%Z. destruct (Z.ltb_spec (Z.of_nat (length ts)) (two64 - 1)); [reflexivity|lia]. }
  rewrite T by lia. reflexivity.
Qed.
Print Assumptions C118_absent_throws.
(* Finding: a parenthesis between brackets is counted as a group, so that [(] has a group that takes part in
   no match, and regex_replace throws; a group after an escaped backslash is not counted. *)
Theorem C118_groups_refuted : find_nmatch (lit "[(]") = 1 /\ group_count Outside (lit "[(]") = 0 /\
  regex_replace (exec_of (Pattern false (Text "(") false)) (find_nmatch (lit "[(]")) (fun _ => []) (lit "f(x") = Throws /\
  find_nmatch (lit "\\(a)") = 0 /\ group_count Outside (lit "\\(a)") = 1.
Proof. repeat split; vm_compute; reflexivity. Qed.
Print Assumptions C118_groups_refuted.
(* Finding: ^ matches again after each match: "aab" with ^a replaced by c becomes "ccb". *)
Theorem C118_anchor_refuted : exists p ts, bol p = true /\ (forall x m y, ts = x ++ m ++ y -> occurs p x m y -> x = []) /\
  regex_replace (exec_of p) 0 (fun _ => lit "c") ts = Ok (lit "ccb") /\ ts = lit "aab".
Proof.
  exists (Pattern true (Text "a") false), (lit "aab"). split; [reflexivity|]. split; [|split; vm_compute; reflexivity].
  intros x m y _ (_ & H & _). apply H. reflexivity.
Qed.
Print Assumptions C118_anchor_refuted.
