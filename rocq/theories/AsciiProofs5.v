From Coq Require Import Ascii NArith Lia.
From Verif Require Import Base VecModel VecProofs StrModel StrSpec StrProofs StrProofs2 StrProofs3
  AsciiModel AsciiSpec AsciiProofs AsciiProofs2 AsciiProofs3 AsciiProofs4.
Local Open Scope nat_scope.

Section Read.
Context {V : Type}.
Variable dflt : V.
Variable o : input_format.
Variable args : list (arg V).

Definition used_of (content : str) : list str := filter (data_line o) (map getline (pieces content)).
Lemma used_of_data content : Forall (fun l => data_line o l = true) (used_of content).
Proof. apply Forall_forall. intros l I. now apply filter_In in I. Qed.

Lemma Forall_skipn A (P : A -> Prop) l n : Forall P l -> Forall P (skipn n l).
Proof. intro H. revert n. induction H; intros [|n]; cbn; auto. Qed.

(* the value of n *)
Lemma rows_n c k : (c < two64N -> k <= c -> (c + (two64N - k mod two64N)) mod two64N = c - k)%N.
Proof.
  intros. rewrite (N.mod_small k) by lia.
  replace (c + (two64N - k))%N with (c - k + 1 * two64N)%N by lia.
  rewrite N.mod_add by discriminate. apply N.mod_small. lia.
Qed.
Lemma rows_n_wrap c k : (k < two64N -> c < k -> (c + (two64N - k mod two64N)) mod two64N = two64N - (k - c))%N.
Proof. intros. rewrite (N.mod_small k) by lia. rewrite N.mod_small; lia. Qed.

Lemma read_table_unfold content us : us = used_of content -> (N.of_nat (length us) < two64N)%N ->
  (skip_first o <= N.of_nat (length us))%N ->
  read_table V dflt o content args =
  (sto <- omapl (resize_arg V dflt (N.of_nat (length (skipn (N.to_nat (skip_first o)) us)))) args ;;
   '(_, _, sto') <- ofold (read_line V o args) (skipn (N.to_nat (skip_first o)) us) (0, 0%N, sto) ;; Ok sto').
Proof.
  intros -> L K. unfold read_table. fold (used_of content). rewrite rows_n by assumption. rewrite skipn_length.
  replace (N.of_nat (length (used_of content) - N.to_nat (skip_first o)))
    with (N.of_nat (length (used_of content)) - skip_first o)%N by lia.
  destruct (omapl _ args) as [sto| | | |]; try reflexivity. cbn [obind].
  rewrite read_filter. fold (used_of content). rewrite read_skip by apply used_of_data.
  destruct (N.leb_spec (N.of_nat (length (used_of content))) (skip_first o)) as [X|X]; [|reflexivity].
  rewrite skipn_all2 by lia. reflexivity.
Qed.

Lemma read_good content us fss : us = used_of content -> (N.of_nat (length us) < two64N)%N ->
  (skip_first o <= N.of_nat (length us))%N ->
  Forall2 (gives o args) (skipn (N.to_nat (skip_first o)) us) fss ->
  fits_rows args (length fss) -> Forall (row_ok args) fss ->
  exists sto, read_table V dflt o content args = Ok sto /\ sized args (length fss) sto /\
    forall i fs, nth_error fss i = Some fs -> row_stored args sto i fs.
Proof.
  intros E L K G Fi Ro. rewrite (read_table_unfold content us E L K).
  pose proof (Forall2_len _ _ _ _ _ G) as Len. rewrite Len.
  destruct (resize_ok dflt args _ Fi) as (sto & Er & Sz). rewrite Er. cbn [obind].
  destruct (rows_good o args (length fss) _ _ G Ro) with (i0 := 0) (sto := sto) as (sto' & E2 & Sz2 & St & _).
  - apply Forall_skipn. rewrite E. apply used_of_data.
  - exact Sz.
  - lia.
  - exists sto'. split; [|split; [exact Sz2|exact St]].
    match goal with |- obind ?x _ = _ => replace x with (Ok (0 + length (skipn (N.to_nat (skip_first o)) us), 0%N, sto')) end.
    reflexivity.
Qed.
Lemma read_bad content us fss : us = used_of content -> (N.of_nat (length us) < two64N)%N ->
  (skip_first o <= N.of_nat (length us))%N ->
  Forall2 (gives o args) (skipn (N.to_nat (skip_first o)) us) fss ->
  fits_rows args (length fss) -> ~ Forall (row_ok args) fss ->
  read_table V dflt o content args = CheckFail.
Proof.
  intros E L K G Fi Ro. rewrite (read_table_unfold content us E L K).
  pose proof (Forall2_len _ _ _ _ _ G) as Len. rewrite Len.
  destruct (resize_ok dflt args _ Fi) as (sto & Er & Sz). rewrite Er. cbn [obind].
  assert (H : ofold (read_line V o args) (skipn (N.to_nat (skip_first o)) us) (0, 0%N, sto) = CheckFail).
  { apply (rows_bad o args (length fss) _ fss G Ro); [|exact Sz|lia]. apply Forall_skipn. rewrite E. apply used_of_data. }
  match goal with |- obind ?x _ = _ => replace x with (@CheckFail (nat * N * list (list (list V)))) end. reflexivity.
Qed.

(* --- no undefined behaviour --- *)
Definition decent {A} (x : outcome A) : Prop :=
  match x with UB | Diverge => False | _ => True end.

Lemma resize_data_cases n : resize_data V dflt n = Throws \/
  (n <= max_elems)%N /\ resize_data V dflt n = Ok (repeat dflt (N.to_nat n)).
Proof. unfold resize_data. destruct (N.leb_spec n max_elems); auto. Qed.

Lemma omapl_decent A B (f : A -> outcome B) l : (forall x, In x l -> decent (f x)) -> decent (omapl f l).
Proof.
  induction l as [|x l IH]; intro H; [exact I|]. cbn [omapl]. pose proof (H x (or_introl eq_refl)) as Hx.
  destruct (f x); try exact Hx; try exact I. cbn [obind].
  assert (Hl : decent (omapl f l)) by (apply IH; intros; apply H; now right).
  destruct (omapl f l); try exact Hl; exact I.
Qed.
Lemma resize_decent n g : decent (resize_arg V dflt n g).
Proof.
  destruct g as [p|p| |m qs]; cbn [resize_arg].
  - destruct (resize_data_cases n) as [->|(_ & ->)]; exact I.
  - unfold check. destruct (n <=? 1)%N; exact I.
  - exact I.
  - apply omapl_decent. intros [q|] _; [|exact I]. destruct (resize_data_cases ((n * N.of_nat m) mod two64N)) as [->|(_ & ->)]; exact I.
Qed.

Lemma resize_sized args' n : (forall m cols, In (AGroup V m cols) args' -> (N.of_nat n * N.of_nat m < two64N)%N) ->
  forall sto, omapl (resize_arg V dflt (N.of_nat n)) args' = Ok sto -> sized args' n sto.
Proof.
  induction args' as [|g t IH]; intros H sto E; cbn [omapl] in E.
  - injection E as <-. constructor.
  - destruct (resize_arg V dflt (N.of_nat n) g) as [c| | | |] eqn:Eg; try discriminate E. cbn [obind] in E.
    destruct (omapl _ t) as [st| | | |] eqn:Et; try discriminate E. injection E as <-.
    constructor; [|apply IH; [intros; apply (H m cols); now right|reflexivity]].
    destruct g as [p|p| |m qs].
    + cbn [resize_arg] in Eg. destruct (resize_data_cases (N.of_nat n)) as [X|(_ & X)]; rewrite X in Eg; [discriminate Eg|].
      injection Eg as <-. eexists; split; [reflexivity|]. rewrite repeat_length. lia.
    + cbn [resize_arg] in Eg. unfold check in Eg. destruct (N.leb_spec (N.of_nat n) 1); [|discriminate Eg].
      injection Eg as <-. exists dflt. split; [reflexivity|lia].
    + now injection Eg as <-.
    + specialize (H m qs (or_introl eq_refl)). cbn [resize_arg] in Eg. rewrite N.mod_small in Eg by exact H.
      pose proof (resize_data_cases (N.of_nat n * N.of_nat m)) as HR.
      revert HR Eg. generalize (resize_data V dflt (N.of_nat n * N.of_nat m)). intros R HR Eg.
      clear - Eg HR. revert c Eg. induction qs as [|q qs IH]; intros c E; cbn [omapl] in E.
      * injection E as <-. constructor.
      * destruct q as [q|].
        -- destruct HR as [->|(_ & ->)]; [discriminate E|].
           cbn [obind] in E. destruct (omapl _ qs) as [c'| | | |] eqn:E2; try discriminate E. injection E as <-.
           constructor; [|now apply IH]. intros _. rewrite repeat_length. lia.
        -- cbn [obind] in E. destruct (omapl _ qs) as [c'| | | |] eqn:E2; try discriminate E. injection E as <-.
           constructor; [|now apply IH]. intro X. now elim X.
Qed.

Lemma gives_all ls : Forall (fun l => data_line o l = true) ls -> exists fss, Forall2 (gives o args) ls fss.
Proof.
  induction 1 as [|l ls H _ (fss & IH)]; [exists []; constructor|].
  destruct (gives_ex o args l H) as (fs & G). exists (fs :: fss). now constructor.
Qed.

Lemma Forall_row_dec fss : {Forall (row_ok args) fss} + {~ Forall (row_ok args) fss}.
Proof. apply Forall_dec. apply row_ok_dec. Qed.

Lemma read_decent content : (N.of_nat (length (used_of content)) < two64N)%N -> (skip_first o < two64N)%N ->
  (forall m cols, In (AGroup V m cols) args -> (N.of_nat (length (used_of content)) * N.of_nat m < two64N)%N) ->
  decent (read_table V dflt o content args).
Proof.
  intros L K H. set (us := used_of content) in *.
  destruct (N.leb_spec (skip_first o) (N.of_nat (length us))) as [C|C].
  - rewrite (read_table_unfold content us eq_refl L C).
    set (ls := skipn (N.to_nat (skip_first o)) us).
    assert (De : decent (omapl (resize_arg V dflt (N.of_nat (length ls))) args)) by (apply omapl_decent; intros; apply resize_decent).
    destruct (omapl _ args) as [sto| | | |] eqn:E; try exact De. cbn [obind]. clear De.
    assert (Sz : sized args (length ls) sto).
    { apply resize_sized; [|exact E]. intros m cols I. specialize (H m cols I). unfold ls. rewrite skipn_length. nia. }
    assert (DL : Forall (fun l => data_line o l = true) ls) by (apply Forall_skipn, used_of_data).
    destruct (gives_all ls DL) as (fss & G). destruct (Forall_row_dec fss) as [R|R].
    + destruct (rows_good o args (length ls) ls fss G R DL 0 sto Sz (le_n _)) as (sto' & E2 & _).
      match goal with |- decent (obind ?x _) => replace x with (Ok (0 + length ls, 0%N, sto')) end. exact I.
    + pose proof (rows_bad o args (length ls) ls fss G R DL 0 sto Sz (le_n _)) as E2.
      match goal with |- decent (obind ?x _) => replace x with (@CheckFail (nat * N * list (list (list V)))) end. exact I.
  - unfold read_table. fold us.
    set (n := ((N.of_nat (length (filter (data_line o) (map getline (pieces content)))) + _) mod _)%N).
    assert (De : decent (omapl (resize_arg V dflt n) args)) by (apply omapl_decent; intros; apply resize_decent).
    destruct (omapl _ args) as [sto| | | |]; try exact De. cbn [obind].
    rewrite read_filter. fold (used_of content). rewrite read_skip by apply used_of_data. fold us.
    destruct (N.leb_spec (N.of_nat (length us)) (skip_first o)) as [X|X]; [exact I|lia].
Qed.

Lemma pieces_length s : length (pieces s) <= S (length s).
Proof.
  induction s as [|c t IH]; [cbn; lia|]. cbn [pieces length]. destruct (Ascii.eqb c nl); [cbn [length]; lia|].
  destruct (pieces t); cbn [length] in *; lia.
Qed.
Lemma used_length content : length (used_of content) <= S (length content).
Proof.
  unfold used_of. etransitivity; [|apply pieces_length]. rewrite <- (map_length getline (pieces content)).
  induction (map getline (pieces content)) as [|l ls IH]; [cbn; lia|]. cbn [filter]. destruct (data_line o l); cbn [length]; lia.
Qed.

(* a scalar cannot receive two rows *)
Lemma resize_scalar args1 p args2 n : fits_rows args1 n -> 2 <= n ->
  omapl (resize_arg V dflt (N.of_nat n)) (args1 ++ AScalar V p :: args2) = CheckFail.
Proof.
  intros F L. induction F as [|g t Hg F IH]; cbn [app omapl].
  - cbn [resize_arg]. unfold check. destruct (N.leb_spec (N.of_nat n) 1); [lia|]. reflexivity.
  - destruct (resize_ok dflt [g] n) as (sto & E & _); [now constructor|]. cbn [omapl] in E.
    destruct (resize_arg V dflt (N.of_nat n) g); try discriminate E. cbn [obind]. now rewrite IH.
Qed.
End Read.

(* --- layout --- *)
Lemma layout_app V (a b : list (arg V)) : forall k, layout k (a ++ b) = layout k a ++ layout (k + length a) b.
Proof.
  induction a as [|g a IH]; intro k; [cbn; now rewrite Nat.add_0_r|]. cbn [app layout length].
  rewrite IH, <- app_assoc. now rewrite Nat.add_succ_r.
Qed.
Lemma group_nth V a m cols k c : forall n s, k < n -> c < length cols ->
  nth_error (concat (map (fun k => group_layout (V:=V) a m k cols 0) (seq s n))) (k * length cols + c) =
  match nth_error cols c with Some q => Some (option_map (mk_dest a c m (s + k)) q) | None => None end.
Proof.
  induction k as [|k IH]; intros n s Lk Lc; (destruct n as [|n]; [lia|]); cbn [seq map concat].
  - rewrite nth_error_app1 by (rewrite group_layout_length; cbn; lia).
    rewrite group_layout_nth. now rewrite Nat.add_0_r.
  - rewrite nth_error_app2 by (rewrite group_layout_length; cbn [Nat.mul]; lia). rewrite group_layout_length.
    replace (S k * length cols + c - length cols) with (k * length cols + c) by (cbn [Nat.mul]; lia).
    rewrite IH by lia. now rewrite Nat.add_succ_r.
Qed.

Lemma fields_fun o l fs fs' : fields_of o l fs -> fields_of o l fs' -> fs = fs'.
Proof.
  unfold fields_of. destruct (delim_single o).
  - intros [A _] [B _]. now apply (cut_fun _ _ _ A).
  - intros A B. now apply (words_fun _ _ _ A).
Qed.

(* --- findings --- *)
Lemma stuck_row n k s (sto0 : list (list (list str))) a :
  feed n s (repeat [] n) -> length sto0 = a -> k <= n ->
  exists s', ofold (do_call str) (row_calls str 0 a (repeat (AVec str (fun w => Some w)) k)) (s, sto0 ++ repeat [[[]]] k) =
  Ok (s', sto0 ++ repeat [[[]]] k) .
Proof.
  revert n s sto0 a. induction k as [|k IH]; intros n s sto0 a F L Lk; [cbn; eauto|].
  destruct n as [|n]; [lia|]. cbn [feed repeat] in F. destruct F as (s1 & E & F).
  cbn [repeat row_calls arg_calls app ofold]. unfold do_call at 1. rewrite E. cbn [obind].
  unfold oget at 1. rewrite nth_error_app2 by lia. rewrite L, Nat.sub_diag. cbn [nth_error obind].
  unfold oget at 1. cbn [nth_error obind]. unfold oset at 1. cbn [length Nat.ltb Nat.leb upd obind].
  unfold oset at 1. cbn [length Nat.ltb Nat.leb upd obind].
  unfold oset at 1. rewrite app_length. cbn [length]. rewrite (proj2 (Nat.ltb_lt _ _)) by lia. cbn [obind].
  assert (U : upd (sto0 ++ [[[]]] :: repeat [[[]]] k) a [[[]]] = sto0 ++ [[[]]] :: repeat [[[]]] k).
  { apply list_eq_nth_error. intro j. rewrite nth_error_upd, app_length. cbn [length].
    destruct (Nat.eqb_spec j a) as [->|N]; [|reflexivity]. rewrite (proj2 (Nat.ltb_lt _ _)) by lia. cbn [andb].
    rewrite nth_error_app2 by lia. now rewrite L, Nat.sub_diag. }
  rewrite U. destruct (IH n s1 (sto0 ++ [[[[]]]]) (S a) F) as (s' & E2); [rewrite app_length; cbn; lia|lia|].
  exists s'. rewrite <- app_assoc in E2. exact E2.
Qed.
