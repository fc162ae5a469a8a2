From Coq Require Import Ascii NArith Lia.
From Verif Require Import Base StrModel StrSpec StrProofs StrProofs2 StrProofs3 AsciiModel AsciiSpec.
Local Open Scope nat_scope.

(* The fields still to be read. *)
Definition rem (s : splitter) (fs : list str) : Prop :=
  match sp_pos s with
  | None => fs = []
  | Some pos => exists u r, sp_line s = u ++ r /\
      if sp_single s then
        (pos = 0 /\ u = [] /\ cut_at (sp_delim s) r fs /\ exists c w t, fs = (c :: w) :: t) \/
        (pos <> 0 /\ length u = pos + length (sp_delim s) /\ cut_at (sp_delim s) r fs)
      else length u = pos /\ words_of (sp_delim s) r fs
  end.

Lemma rem_start o l fs : fields_of o l fs -> rem (mk_spl l (Some 0) (in_delim o) (delim_single o)) fs.
Proof.
  intro H. unfold rem. cbn [sp_pos sp_line sp_single sp_delim]. exists [], l. split; [reflexivity|].
  unfold fields_of in H. destruct (delim_single o).
  - left. destruct H as [H1 H2]. easy.
  - easy.
Qed.

(* next_word and skip_word move in the same way *)
Lemma skip_as_next s : match next_word s with
  | Ok (Some _, s') => skip_word s = (true, s')
  | Ok (None, s') => skip_word s = (false, s')
  | _ => True
  end.
Proof.
  unfold next_word, skip_word. destruct (sp_single s).
  - destruct (sp_pos s) as [pos|]; [|reflexivity].
    set (p := if pos =? 0 then pos else _). destruct (sfind (sp_delim s) (sp_line s) p) as [q|].
    + destruct (substr (sp_line s) p (q - p)); cbn [obind]; reflexivity || exact I.
    + destruct (substr_end (sp_line s) p); cbn [obind]; reflexivity || exact I.
  - destruct (find_first (hasnt (sp_delim s)) (sp_line s) (sp_pos s)) as [p0|]; [|reflexivity].
    destruct (find_first (has (sp_delim s)) (sp_line s) (Some p0)) as [q|];
      [destruct (substr (sp_line s) p0 (q - p0))|destruct (substr_end (sp_line s) p0)]; cbn [obind]; reflexivity || exact I.
Qed.

Lemma cut_step p r fs : p <> [] -> cut_at p r fs ->
  (~ occurs p r /\ fs = [r]) \/
  exists a b t, r = a ++ p ++ b /\ fs = a :: t /\ cut_at p b t /\ (forall i, occurs_at p r i -> length a <= i).
Proof. intros N H. destruct H as [s H|a b w H C]; [now left|right]. exists a, b, w. easy. Qed.

Lemma next_word_ok s fs : (sp_single s = true -> sp_delim s <> []) -> rem s fs ->
  match fs with
  | [] => next_word s = Ok (None, s)
  | w :: t => exists s', next_word s = Ok (Some w, s') /\ rem s' t /\
      sp_single s' = sp_single s /\ sp_delim s' = sp_delim s
  end.
Proof.
  intros D R. unfold rem in R. destruct s as [line pos delim single]. cbn [sp_line sp_pos sp_delim sp_single] in *.
  destruct pos as [pos|].
  2:{ subst fs. unfold next_word. cbn [sp_single sp_pos sp_delim sp_line]. destruct single; [reflexivity|].
      reflexivity. }
  destruct R as (u & r & -> & R). destruct single.
  - specialize (D eq_refl).
    assert (G : exists pos', (if pos =? 0 then pos else pos + length delim) = length u /\ cut_at delim r fs /\
       pos' = pos /\ (pos = 0 -> exists c w t, fs = (c :: w) :: t /\ u = [])).
    { exists pos. destruct R as [(-> & -> & C & c & w & t & E)|(P & L & C)].
      - cbn. repeat split; eauto. 
      - rewrite (proj2 (Nat.eqb_neq _ _) P). repeat split; auto. intros; contradiction. }
    destruct G as (_ & EP & C & _ & Z). clear R.
    pose proof (sfind_spec delim u r) as F.
    destruct (cut_step delim r fs D C) as [(NO & ->)|(a & b & t & -> & -> & C' & M)].
    + unfold next_word. cbn [sp_single sp_pos sp_delim sp_line]. rewrite EP.
      destruct (sfind delim (u ++ r) (length u)) as [k|].
      * destruct F as (a & b & -> & _). exfalso. apply NO. exists (length a), a, b. easy.
      * rewrite substr_tail. cbn [obind]. eexists; split; [reflexivity|]. easy.
    + unfold next_word. cbn [sp_single sp_pos sp_delim sp_line]. rewrite EP.
      destruct (sfind delim (u ++ a ++ delim ++ b) (length u)) as [k|].
      2:{ exfalso. apply F. exists (length a), a, b. easy. }
      destruct F as (a' & b' & E & -> & M').
      assert (length a = length a').
      { assert (length a <= length a') by (apply M; rewrite E; exists a', b'; easy).
        assert (length a' <= length a) by (apply M'; exists a, b; easy). lia. }
      replace (length u + length a' - length u) with (length a) by lia.
      rewrite substr_mid. cbn [obind].
      eexists; split; [reflexivity|]. split; [|easy].
      unfold rem, at_pos. cbn [sp_pos sp_line sp_single sp_delim].
      exists (u ++ a ++ delim), b. split; [now rewrite <- !app_assoc|]. right.
      split; [|split; [rewrite !app_length; lia|exact C']].
      destruct (Nat.eq_dec pos 0) as [P0|P0].
      * destruct (Z P0) as (c & w & t' & E2 & _). injection E2 as -> _. cbn in H. lia.
      * rewrite (proj2 (Nat.eqb_neq _ _) P0) in EP. lia.
  - destruct R as [L W]. unfold next_word. cbn [sp_single sp_pos sp_delim sp_line]. subst pos.
    inversion W as [g MG|g w r' ws MG NW FW HR W']; subst.
    + cbn [find_first]. rewrite skipn_len_app.
      pose proof (first_at_spec (hasnt delim) r (length u)) as F.
      destruct (first_at (hasnt delim) r (length u)) as [k|]; [|reflexivity].
      destruct F as (a & c & b & -> & _ & PC & _). apply hasnt_In in PC. exfalso. apply PC, MG.
      apply in_or_app. right. now left.
    + rewrite first_word by assumption.
      rewrite app_assoc. rewrite <- (app_length u g).
      rewrite word_end by assumption.
      destruct HR as [->|(c & t & -> & I)].
      * rewrite app_nil_r, substr_tail. cbn [obind]. eexists; split; [reflexivity|].
        split; [|easy]. unfold rem, at_pos. cbn [sp_pos]. now apply (words_nil delim).
      * replace (length (u ++ g) + length w - length (u ++ g)) with (length w) by lia.
        rewrite substr_mid. cbn [obind]. eexists; split; [reflexivity|]. split; [|easy].
        unfold rem, at_pos. cbn [sp_pos sp_line sp_single sp_delim].
        exists ((u ++ g) ++ w), (c :: t). split; [now rewrite <- !app_assoc|].
        split; [now rewrite !app_length|exact W'].
Qed.

(* Empty first field: the position stays at the start of the line. *)
Lemma next_word_stuck s : sp_single s = true -> sp_pos s = Some 0 ->
  (exists r, sp_line s = sp_delim s ++ r) -> next_word s = Ok (Some [], s).
Proof.
  intros S P (r & L). unfold next_word. rewrite S, P. cbn [Nat.eqb]. rewrite L.
  assert (F : sfind (sp_delim s) (sp_delim s ++ r) 0 = Some 0).
  { unfold sfind. cbn [Nat.leb skipn]. destruct (sp_delim s ++ r) eqn:E; cbn [find_at].
    - assert (X : prefixb (sp_delim s) [] = true) by (apply prefixb_iff; eauto). now rewrite X.
    - assert (X : prefixb (sp_delim s) (a :: l) = true) by (apply prefixb_iff; eauto). now rewrite X. }
  rewrite F. unfold substr. cbn [Nat.leb Nat.sub skipn firstn obind].
  f_equal. f_equal. unfold at_pos. destruct s; cbn in *. now subst.
Qed.
