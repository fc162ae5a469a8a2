From Coq Require Import Ascii String.
From Verif Require Import Base StrModel StrSpec StrProofs ArgvSpec ArgvProofs MacroModel MacroSpec.
Local Open Scope nat_scope.

(* --- brackets ----------------------------------------------------------------- *)
Lemma bracket_other : forall c st, ~ In c brackets -> bracket c 0 opening closing st = Ok st.
Proof.
  intros c st N. cbn in N. cbn.
  repeat match goal with |- context[Ascii.eqb c ?x] => destruct (Ascii.eqb_spec c x) as [->|?]; [tauto|] end. reflexivity.
Qed.
Lemma bracket_open : forall o c, bracket_pair o c ->
  exists k, (forall st, bracket o 0 opening closing st = Ok (k :: st)) /\ (forall st, bracket c 0 opening closing (k :: st) = Ok st).
Proof. intros o c [[-> ->]|[[-> ->]|[-> ->]]]; [exists 0|exists 1|exists 2]; split; reflexivity. Qed.
Lemma scan_nested : forall ban w, nested ban w -> forall rest pos st, (st = [] -> In ","%char ban) ->
  scan (w ++ rest) pos st = scan rest (pos + List.length w) st.
Proof.
  induction 1 as [ban|ban c r Nb Nc _ IH|ban o c b r P _ IHb _ IHr]; intros rest pos st B.
  - cbn. now rewrite Nat.add_0_r.
  - cbn [app scan List.length]. replace (pos + S (List.length r)) with (pos + 1 + List.length r) by lia.
    destruct st as [|k st].
    + destruct (Ascii.eqb_spec c ","%char) as [->|_]; [exfalso; auto|]. rewrite bracket_other by auto. cbn [Base.obind]. auto.
    + rewrite bracket_other by auto. cbn [Base.obind]. apply IH; auto.
  - destruct (bracket_open o c P) as (k & Eo & Ec).
    assert (No : Ascii.eqb o ","%char = false) by (destruct P as [[-> _]|[[-> _]|[-> _]]]; reflexivity).
    transitivity (scan ((b ++ c :: r) ++ rest) (pos + 1) (k :: st)).
    + cbn [app scan]. rewrite No. destruct st; rewrite Eo; reflexivity.
    + rewrite <- app_assoc. rewrite IHb by discriminate. cbn [app scan]. rewrite Ec. cbn [Base.obind].
      rewrite IHr by auto. f_equal. cbn [List.length]. rewrite app_length. cbn [List.length]. lia.
Qed.
Lemma nested_suffix : forall ban a w, made_of spacing a -> nested ban (a ++ w) -> nested ban w.
Proof.
  induction a as [|c a IH]; intros w M H; auto. cbn [app] in H. apply IH; [intros x I; apply M; now right|].
  assert (I : In c spacing) by (apply M; now left).
  inversion H as [|c' r N1 N2 H' E|o c' b r P H1 H2 E]; subst; auto.
  exfalso. cbn in I. destruct P as [[-> _]|[[-> _]|[-> _]]]; intuition discriminate.
Qed.

(* --- positions ------------------------------------------------------------------- *)
Lemma find_first_app : forall p a c b, (forall x, In x a -> p x = false) -> p c = true -> find_first p (a ++ c :: b) (Some 0) = Some (List.length a).
Proof.
  intros p a c b A C. cbn [find_first skipn].
  assert (G : forall i, first_at p (a ++ c :: b) i = Some (i + List.length a)); [|apply (G 0)].
  induction a as [|x a IH]; intros i; cbn.
  - rewrite C. f_equal. lia.
  - rewrite A by now left. rewrite IH by (intros; apply A; now right). f_equal. lia.
Qed.
Lemma find_last_app : forall p a c b n, (forall x, In x b -> p x = false) -> p c = true -> n + 1 = List.length (a ++ c :: b) ->
  forall rest, find_last p (a ++ c :: b ++ rest) (Some n) = Some (List.length a).
Proof.
  intros p a c b n B C Hn rest. unfold find_last. rewrite Hn.
  replace (a ++ c :: b ++ rest) with ((a ++ c :: b) ++ rest) by now rewrite <- app_assoc. rewrite firstn_len_app.
  assert (G : forall i acc, last_at p (a ++ c :: b) i acc = Some (i + List.length a)); [|apply (G 0)].
  clear Hn. induction a as [|x a IH]; intros i acc; cbn.
  - rewrite C, Nat.add_0_r. clear -B. revert B. generalize (S i) as j. induction b as [|y b IH]; intros j B; cbn; auto.
    rewrite B by now left. apply IH. intros; apply B; now right.
  - rewrite IH. f_equal. lia.
Qed.

Lemma pop_name_ok : forall w rest, expression w -> ~ made_of spacing w -> (rest = [] \/ exists r, rest = ","%char :: r) ->
  pop_name (w ++ rest) = Ok (strip spacing w, tl rest).
Proof.
  intros w rest X N R. destruct (strip_split spacing w) as (a & b & E & A & B). pose proof (core_strip spacing w) as C.
  set (m := strip spacing w) in *. clearbody m. subst w.
  destruct C as [->|((c & t & E1 & Nc) & (u & d & E2 & Nd))].
  { exfalso. apply N. intros x I. cbn in I. apply in_app_or in I. destruct I; auto. }
  assert (F : find_first (hasnt spacing) ((a ++ m ++ b) ++ rest) (Some 0) = Some (List.length a)).
  { rewrite E1. rewrite <- app_assoc. cbn [app]. apply find_first_app; [|now apply hasnt_In].
    intros x I. apply hasnt_false. auto. }
  assert (S1 : scan (skipn (List.length a) ((a ++ m ++ b) ++ rest)) (List.length a) [] = Ok (List.length (a ++ m ++ b))).
  { rewrite <- app_assoc, skipn_len_app. apply nested_suffix in X; auto.
    rewrite (scan_nested _ _ X) by now left. rewrite !app_length. destruct R as [->|(r & ->)]; reflexivity. }
  assert (Lm : List.length m = S (List.length u)) by (rewrite E2, app_length; cbn; lia).
  assert (L : find_last (hasnt spacing) ((a ++ m ++ b) ++ rest) (Some (List.length a + (List.length u + List.length b))) = Some (List.length (a ++ u))).
  { rewrite E2. replace ((a ++ (u ++ [d]) ++ b) ++ rest) with ((a ++ u) ++ d :: b ++ rest) by (rewrite <- !app_assoc; reflexivity).
    apply find_last_app; [|now apply hasnt_In|rewrite !app_length; cbn; rewrite ?app_length; lia].
    intros x I. apply hasnt_false. auto. }
  unfold pop_name. rewrite F, S1. cbn [Base.obind].
  assert (Ln : List.length (a ++ m ++ b) = S (List.length a + (List.length u + List.length b))) by (rewrite !app_length; lia).
  cbv zeta.
  replace (match List.length (a ++ m ++ b) with 0 => None | S p => Some p end) with (Some (List.length a + (List.length u + List.length b)))
    by now rewrite Ln.
  rewrite L.
  destruct (Nat.leb_spec (List.length a) (List.length (a ++ u) + 1)) as [_|H]; [|rewrite app_length in H; lia].
  replace (List.length (a ++ u) + 1 - List.length a) with (List.length m) by (rewrite app_length; lia).
  rewrite <- !app_assoc, substr_mid. cbn [Base.obind]. rewrite (app_assoc m), (app_assoc a).
  destruct R as [->|(r & ->)].
  - rewrite app_nil_r, Nat.eqb_refl. cbn [tl]. rewrite <- (app_nil_r (a ++ m ++ b)) at 1. now rewrite substr_tail.
  - rewrite (app_length (a ++ m ++ b)). cbn [List.length].
    destruct (Nat.eqb_spec (List.length (a ++ m ++ b)) (List.length (a ++ m ++ b) + S (List.length r))); [lia|].
    replace (List.length (a ++ m ++ b) + 1) with (List.length ((a ++ m ++ b) ++ [","%char])) by (rewrite (app_length (a ++ m ++ b)); reflexivity).
    replace ((a ++ m ++ b) ++ ","%char :: r) with (((a ++ m ++ b) ++ [","%char]) ++ r) by now rewrite <- app_assoc.
    rewrite substr_tail. reflexivity.
Qed.

Lemma split_loop_ok : forall ws fuel names, ws <> [] -> Forall expression ws -> Forall (fun w => ~ made_of spacing w) ws ->
  List.length (joined ws [","%char]) < fuel -> split_loop fuel (joined ws [","%char]) names = Ok (names ++ map (strip spacing) ws).
Proof.
  induction ws as [|w ws IH]; intros fuel names N X B F; [tauto|]. inversion X as [|? ? X1 X2]; inversion B as [|? ? B1 B2]; subst.
  destruct fuel as [|f]; [lia|]. destruct ws as [|w' ws].
  - cbn [joined split_loop map]. rewrite <- (app_nil_r w) at 1. rewrite pop_name_ok by auto. reflexivity.
  - change (joined (w :: w' :: ws) [","%char]) with (w ++ ","%char :: joined (w' :: ws) [","%char]) in *.
    cbn [split_loop]. rewrite pop_name_ok by eauto. cbn [Base.obind tl].
    assert (Ne : joined (w' :: ws) [","%char] <> []).
    { inversion B2 as [|? ? B3 _]; subst. destruct ws; cbn; [intros ->; apply B3; intros ? []|]. destruct w'; cbn; discriminate. }
    rewrite app_length in F. cbn [List.length] in F.
    assert (H := IH f (names ++ [strip spacing w]) ltac:(discriminate) X2 B2 ltac:(lia)).
    destruct (joined (w' :: ws) [","%char]); [tauto|]. rewrite H. now rewrite <- app_assoc.
Qed.

(* --- termination ------------------------------------------------------------------- *)
Lemma bracket_not_diverge : forall os cs c k st, bracket c k os cs st <> Diverge.
Proof.
  induction os as [|o os IH]; intros [|d cs] c k st; cbn; try discriminate. destruct (Ascii.eqb c o); [discriminate|].
  destruct (Ascii.eqb c d); [|apply IH]. destruct st as [|j st]; [discriminate|]. unfold check. destruct (j =? k); discriminate.
Qed.
Lemma scan_not_diverge : forall s pos st, scan s pos st <> Diverge.
Proof.
  induction s as [|c s IH]; intros pos st; cbn [scan]; [discriminate|].
  destruct st as [|j st]; [destruct (Ascii.eqb c ","%char); [discriminate|]|];
    match goal with |- context[bracket ?a ?b ?o ?d ?e] => destruct (bracket a b o d e) eqn:E end;
    cbn [Base.obind]; try discriminate; try (exfalso; eapply bracket_not_diverge; exact E); apply IH.
Qed.
Lemma pop_shorter : forall s, pop_name s <> Diverge /\ (forall n s', pop_name s = Ok (n, s') -> s' = [] \/ List.length s' < List.length s).
Proof.
  intros s. unfold pop_name. destruct (find_first _ s _) as [p0|]; [|split; [discriminate|discriminate]].
  destruct (scan (skipn p0 s) p0 []) as [pos| | | |] eqn:E; cbn [Base.obind]; try (split; [discriminate|discriminate]); [|now apply scan_not_diverge in E].
  cbv zeta. match goal with |- (Base.obind ?x _ <> _) /\ _ => destruct x as [nm| | | |] eqn:En end; cbn [Base.obind]; try (split; discriminate).
  - unfold substr_end. destruct (Nat.eqb_spec pos (List.length s)) as [->|Np].
    + rewrite Nat.leb_refl. cbn [Base.obind]. split; [discriminate|]. intros n s' [= _ <-]. left. apply skipn_all.
    + destruct (pos + 1 <=? List.length s) eqn:Lp; cbn [Base.obind]; [|split; discriminate]. apply Nat.leb_le in Lp. split; [discriminate|].
      intros n s' [= _ <-]. right. rewrite skipn_length. lia.
  - exfalso. clear -En. unfold substr, substr_end in En.
    repeat match type of En with context[match ?x with _ => _ end] => destruct x end; discriminate.
Qed.
Lemma split_loop_total : forall fuel s names, List.length s < fuel -> split_loop fuel s names <> Diverge.
Proof.
  induction fuel as [|f IH]; intros s names H; [lia|]. cbn [split_loop]. destruct (pop_shorter s) as (D & P).
  destruct (pop_name s) as [[n s']| | | |] eqn:E; cbn [Base.obind]; try discriminate; [|tauto].
  destruct (P n s' eq_refl) as [->|L]; [discriminate|]. destruct s' as [|c s']; [discriminate|]. apply IH. lia.
Qed.

(* --- headers -------------------------------------------------------------------------- *)
From Verif Require Import NumModel.
Lemma bake_ok : forall t n, baked t n -> bake t = Ok n.
Proof.
  intros t n [s N|a s N]; unfold bake.
  - cbn [find_first skipn]. rewrite first_at_char. now rewrite (proj2 (after_none _ _) N).
  - rewrite find_first_app; [|intros x I; apply has_false; intros [<-|[]]; auto|reflexivity].
    replace (List.length a + 1) with (List.length (a ++ ["."%char])) by (rewrite app_length; reflexivity).
    change ("."%char :: s) with (["."%char] ++ s). rewrite app_assoc. apply substr_tail.
Qed.
Lemma baked_total : forall t, exists n, baked t n.
Proof.
  intros t. destruct (after "."%char t) as [u|] eqn:E.
  - exists u. rewrite (after_some _ _ _ E). constructor. apply before_none.
  - exists t. constructor. now apply after_none.
Qed.
Lemma fix_2d_ok : forall ns args hs, header_names (fun j => to_string (Z.of_nat j)) ns args hs -> forall pre,
  fix_2d (pre ++ ns) (List.length pre) args = Ok (pre ++ hs).
Proof.
  induction 1 as [|n a ns args h hs C _ IH]; intros pre; auto. destruct C as [|k Hk].
  - cbn [fix_2d app]. specialize (IH (pre ++ [n])). rewrite app_length in IH. cbn [List.length] in IH.
    rewrite <- !app_assoc in IH. exact IH.
  - cbn [fix_2d]. unfold check. rewrite (proj2 (Nat.ltb_lt _ _)) by (rewrite app_length; cbn; lia). cbn [Base.obind].
    unfold oget. rewrite nth_error_app2, Nat.sub_diag by lia. cbn [nth_error Base.obind]. cbv zeta.
    rewrite <- seq_shift, map_map.
    set (f := fun j : nat => n ++ "_"%char :: to_string (Z.of_nat (j + 1))).
    assert (E : map (fun x => n ++ "_"%char :: to_string (Z.of_nat (S x))) (seq 0 k) = map f (seq 0 k)).
    { apply map_ext. intros j. unfold f. now rewrite Nat.add_1_r. }
    rewrite E. destruct (map f (seq 0 k)) as [|x xs] eqn:Ex.
    { destruct k; [lia|discriminate]. }
    rewrite firstn_len_app. replace (List.length pre + 1) with (List.length (pre ++ [n])) by (rewrite app_length; reflexivity).
    change (n :: ns) with ([n] ++ ns). rewrite (app_assoc pre), skipn_len_app.
    specialize (IH (pre ++ x :: xs)). rewrite <- !app_assoc in IH. rewrite <- IH. f_equal. 
    rewrite app_length, <- Ex, map_length, seq_length. reflexivity.
Qed.
Lemma macro_header_ok : forall ws ns args hs, ws <> [] -> Forall expression ws -> Forall (fun w => ~ made_of spacing w) ws ->
  Forall2 (fun w n => baked (strip spacing w) n) ws ns -> header_names (fun j => to_string (Z.of_nat j)) ns args hs ->
  macro_header (joined ws [","%char]) args = Ok hs.
Proof.
  intros ws ns args hs N X B K H. unfold macro_header, split_names. rewrite split_loop_ok by (auto; lia). cbn [Base.obind app].
  assert (E : omapl bake (map (strip spacing) ws) = Ok ns).
  { clear -K. induction K as [|w n ws ns K _ IH]; auto. cbn [map omapl]. rewrite (bake_ok _ _ K). cbn [Base.obind].
    now rewrite IH. }
  rewrite E. cbn [Base.obind]. apply (fix_2d_ok ns args hs H []).
Qed.
