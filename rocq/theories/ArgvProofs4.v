From Coq Require Import Ascii String.
From Verif Require Import Base StrModel StrSpec StrProofs StrProofs2 VecProofs ArgvModel ArgvSpec ArgvProofs ArgvProofs2 ArgvProofs3.
Local Open Scope nat_scope.

Lemma strip_length : forall chars s, length (strip chars s) <= length s.
Proof.
  intros. destruct (strip_split chars s) as (a & b & E & _). rewrite E at 2. rewrite !app_length. lia.
Qed.
Lemma strip_same_length : forall chars s, length (strip chars s) = length s -> strip chars s = s.
Proof.
  intros chars s H. destruct (strip_split chars s) as (a & b & E & _).
  assert (length a = 0 /\ length b = 0).
  { rewrite E in H at 2. rewrite !app_length in H. lia. }
  destruct a, b; cbn in *; try lia. now rewrite app_nil_r in E.
Qed.
Lemma clean_strip : forall s, clean s = s -> strip blank_chars s = s.
Proof.
  intros s H. apply strip_same_length. apply Nat.le_antisymm; [apply strip_length|].
  rewrite <- H at 1. apply strip_length.
Qed.

Lemma pieces_free : forall s, ~ In ","%char s -> pieces s = [s].
Proof.
  induction s as [|c s IH]; intros N; cbn; auto. cbn in N. destruct (ascii_dec c ","%char); [subst; tauto|].
  rewrite IH by tauto. reflexivity.
Qed.
Lemma pieces_comma : forall s r, ~ In ","%char s -> pieces (s ++ ","%char :: r) = s :: pieces r.
Proof.
  induction s as [|c s IH]; intros r N; cbn [app pieces].
  - destruct (ascii_dec ","%char ","%char); [auto|tauto].
  - cbn in N. destruct (ascii_dec c ","%char); [subst; tauto|]. rewrite IH by tauto. reflexivity.
Qed.
Lemma pieces_list : forall l, l <> [] -> (forall s, In s l -> ~ In ","%char s) -> pieces (list_text l) = l.
Proof.
  induction l as [|x l IH]; intros N0 H; [tauto|]. destruct l as [|y l].
  - cbn. apply pieces_free, H. now left.
  - change (list_text (x :: y :: l)) with (x ++ lit "," ++ list_text (y :: l)). cbn [lit list_ascii_of_string app].
    rewrite pieces_comma by (apply H; now left). f_equal. apply IH; [discriminate|]. intros s I. apply H. now right.
Qed.
Lemma listed_brackets : forall b, listed (lit "[" ++ b ++ lit "]") = Some b.
Proof.
  intros b. cbn [lit list_ascii_of_string app listed]. rewrite rev_app_distr. cbn [rev app]. now rewrite rev_involutive.
Qed.
Lemma strip_brackets : forall b, strip blank_chars (lit "[" ++ b ++ lit "]") = lit "[" ++ b ++ lit "]".
Proof.
  intros b. apply strip_core. right. split.
  - exists "["%char, (b ++ lit "]"). split; auto. cbn. intuition discriminate.
  - exists (lit "[" ++ b), "]"%char. split; [now rewrite <- app_assoc|]. cbn. intuition discriminate.
Qed.
Lemma sequence_some : forall A (l : list A), sequence (map Some l) = Some l.
Proof. induction l as [|x l IH]; auto. cbn. now rewrite IH. Qed.
Lemma list_text_nil : forall l, list_text l = [] -> l = [] \/ l = [[]].
Proof.
  intros [|x [|y l]]; auto.
  - cbn. intros ->. now right.
  - change (list_text (x :: y :: l)) with (x ++ lit "," ++ list_text (y :: l)). cbn [lit list_ascii_of_string app].
    intros H. destruct x; discriminate.
Qed.
Lemma values_list : forall E (p : text_t -> option E) (l : list E) (f : E -> text_t),
  (forall x, In x l -> p (clean (f x)) = Some x /\ ~ In ","%char (f x)) -> map f l <> [[]] ->
  values p (lit "[" ++ list_text (map f l) ++ lit "]") = Some l.
Proof.
  intros E p l f H N. unfold values. rewrite listed_brackets.
  destruct l as [|x l]; auto. set (L := x :: l) in *.
  assert (Y : sequence (map (fun y => p (clean y)) (pieces (list_text (map f L)))) = Some L).
  { rewrite pieces_list.
    - rewrite map_map, <- sequence_some. f_equal. apply map_ext_in. intros y I. now apply H.
    - unfold L. discriminate.
    - intros s I. apply in_map_iff in I. destruct I as (y & <- & I). now apply H. }
  destruct (list_text (map f L)) eqn:T; auto.
  apply list_text_nil in T. destruct T as [T|T]; [discriminate|contradiction].
Qed.
Lemma core_cons_app : forall chars a x b, core chars (a ++ [x]) -> ~ In x chars -> core chars b -> core chars (a ++ [x] ++ b).
Proof.
  intros chars a x b Ca Nx Cb. right. split.
  - destruct Ca as [E|[(c & t & E & Nc) _]]; [destruct a; discriminate|]. exists c, (t ++ b). split; auto.
    rewrite app_assoc, E. reflexivity.
  - destruct Cb as [->|[_ (t & c & -> & Nc)]].
    + exists a, x. auto.
    + exists (a ++ [x] ++ t), c. split; auto. now rewrite <- !app_assoc.
Qed.
Lemma core_of_strip : forall chars s, strip chars s = s -> core chars s.
Proof. intros chars s E. rewrite <- E. apply core_strip. Qed.
Lemma make_args_trimmed : forall l, (forall s, In s l -> strip blank_chars s = s) -> make_args l = Ok (make_args_vec l).
Proof.
  unfold make_args, make_args_vec. induction l as [|s l IH]; intros H; auto. cbn [omapl map].
  rewrite trim_strip. change (strip blanks s) with (strip blank_chars s). rewrite H by (now left). cbn [obind]. rewrite IH; auto. intros x I. apply H. now right.
Qed.

Section Vars.
Context {V : Type} (parse : text_t -> option V) (left : text_t -> V -> V) (one : V) (show : V -> text_t).
Local Notation assigned := (assigned parse one).
Local Notation read_args := (read_args parse left one show).
Local Notation write_args := (write_args parse left one show).
Local Notation assignment := (assignment show).

Definition written (nt : text_t * var V) : arg := Arg (assignment (fst nt) (snd nt)) true true.
Lemma write_args_good : forall ws its ns args, name_it_all ws its ns -> (forall it, In it its -> fst it = None) ->
  write_args args (joined ws [","%char]) its = Ok (args ++ map written (combine ns (map snd its)), map snd its, []).
Proof.
  induction ws as [|w ws IH]; intros [|[m t] its] [|n ns] args H U; cbn in H; try tauto.
  - cbn. now rewrite app_nil_r.
  - destruct H as [Hn H]. assert (m = None) by (apply (U (m, t)); now left). subst m.
    unfold names_it in Hn. cbn [fst] in Hn. destruct Hn as [Nw En]. fold (var_name w) in En.
    cbn [ArgvModel.write_args]. destruct ws as [|w' ws].
    + destruct its as [|? ?], ns; cbn in H; try tauto. cbn [joined].
      rewrite split_name_last by auto. cbn [obind]. rewrite En, write_argE. reflexivity.
    + cbn [joined].
      set (J := match ws with [] => w' | _ :: _ => w' ++ [","%char] ++ joined ws [","%char] end).
      assert (EJ : J = joined (w' :: ws) [","%char]) by (destruct ws; reflexivity). clearbody J.
      cbn [app]. rewrite split_name_more by auto. cbn [obind]. rewrite En, substr_after. cbn [obind].
      rewrite EJ, (IH its ns) by (auto; intros it I; apply U; now right).
      cbn [obind map snd combine]. rewrite write_argE, <- app_assoc. reflexivity.
Qed.

Lemma write_too_few : forall ws its args, ws <> [] -> (forall w, In w ws -> ~ In ","%char w) ->
  (forall it, In it its -> fst it = None) -> length ws < length its ->
  write_args args (joined ws [","%char]) its = Throws.
Proof.
  induction ws as [|w ws IH]; intros [|[m t] its] args H0 Hw Hi L; cbn [length] in L; try tauto; try lia.
  assert (m = None) by (apply (Hi (m, t)); now left). subst m. cbn [ArgvModel.write_args].
  assert (Nw : ~ In ","%char w) by (apply Hw; now left).
  destruct ws as [|w' ws].
  - cbn [joined]. rewrite split_name_last by auto. cbn [obind]. destruct its; [cbn in L; lia|reflexivity].
  - cbn [joined].
    set (J := match ws with [] => w' | _ :: _ => w' ++ [","%char] ++ joined ws [","%char] end).
    assert (EJ : J = joined (w' :: ws) [","%char]) by (destruct ws; reflexivity). clearbody J.
    cbn [app]. rewrite split_name_more by auto. cbn [obind].
    rewrite substr_after. cbn [obind]. rewrite EJ, IH; auto; [discriminate| | |].
    + intros x I. apply Hw. now right.
    + intros x I. apply Hi. now right.
    + cbn [length] in *. lia.
Qed.

(* --- reading what was written -------------------------------------------------------- *)
Lemma assigned_written : forall n t u, ~ In "="%char n -> writable parse show t -> same_type t u ->
  assigned u (assignment n t) = Some t.
Proof.
  intros n t u N W T. unfold ArgvSpec.assigned, ArgvSpec.assignment. cbn [lit list_ascii_of_string app].
  destruct (after_app "="%char n (var_text show t) N) as [-> _].
  destruct t as [x|s|l|l], u as [x'|s'|l'|l']; cbn in T; try tauto; cbn [var_text writable] in *.
  - destruct W as [W ->]. now rewrite W.
  - now rewrite W.
  - rewrite strip_brackets, values_list; auto.
    + intros x I. destruct (W x I) as (P & C & _ & Nc). now rewrite C.
    + destruct l as [|x [|y l]]; try discriminate. intros [= E]. destruct (W x) as (_ & _ & E' & _); [now left|]. contradiction.
  - destruct W as [W0 W]. rewrite <- (map_id l) at 1. rewrite strip_brackets, values_list; auto.
    + intros s I. destruct (W s I) as [-> Nc]. auto.
    + now rewrite map_id.
Qed.

Lemma used_written : forall ns ts n t, NoDup ns -> (forall k, In k ns -> good_name k) -> In (n, t) (combine ns ts) ->
  uses n (map text (map written (combine ns ts))) = [assignment n t].
Proof.
  induction ns as [|k ns IH]; intros [|u ts] n t Nd G I; cbn in I; try tauto.
  inversion Nd as [|? ? Nk Nd']; subst. cbn [combine map uses filter written text fst snd].
  destruct I as [[= -> ->]|I].
  - assert (F : is_for n (assignment n t) = true) by (apply is_for_iff, arg_name_assignment, G; now left).
    rewrite F. f_equal.
    assert (Z : forall l, (forall m v, In (m, v) l -> good_name m /\ m <> n) -> filter (is_for n) (map text (map written l)) = []).
    { induction l as [|[m v] l IHl]; intros Hl; auto. cbn [map written text fst snd filter].
      destruct (Hl m v) as [Gm Dm]; [now left|]. rewrite is_for_assignment by congruence. apply IHl.
      intros m' v' I'. apply (Hl m' v'). now right. }
    apply Z. intros m v I. apply in_combine_l in I. split; [apply G; now right|]. intros ->. contradiction.
  - assert (n <> k) by (intros ->; apply in_combine_l in I; contradiction).
    rewrite is_for_assignment; [|apply G; now left|auto].
    apply IH; auto. intros k' I'. apply G. now right.
Qed.

Lemma name_it_length : forall ws (its : list (item V)) ns, name_it_all ws its ns -> length ns = length its.
Proof.
  induction ws as [|w ws IH]; intros [|? ?] [|? ?] H; cbn in *; try tauto. f_equal. apply IH. tauto.
Qed.
Lemma in_combine_snd : forall (ns : list text_t) (its : list (item V)) n it,
  In (n, it) (combine ns its) -> In (n, snd it) (combine ns (map snd its)).
Proof.
  induction ns as [|k ns IH]; intros [|i its] n it I; cbn in *; try tauto.
  destruct I as [[= -> ->]|I]; auto.
Qed.
Lemma round_trip : forall ws us ns ts, name_it_all ws us ns -> NoDup ns -> (forall n, In n ns -> good_name n) ->
  Forall2 same_type ts (map snd us) -> (forall t, In t ts -> writable parse show t) ->
  read_args (make_args_vec (map text (map written (combine ns ts)))) (joined ws [","%char]) us =
    Ok (map written (combine ns ts), ts, []).
Proof.
  intros ws us ns ts H Nd G K W.
  assert (Ln : length ns = length us) by now apply name_it_length in H.
  assert (Lt : length ts = length us).
  { assert (X : forall a b : list (var V), Forall2 same_type a b -> length a = length b) by (induction 1; cbn; auto).
    rewrite (X _ _ K). apply map_length. }
  set (args := make_args_vec _).
  assert (Ta : map text args = map text (map written (combine ns ts))).
  { unfold args, make_args_vec. rewrite map_map. cbn [text]. apply map_id. }
  assert (Pair : forall n it, In (n, it) (combine ns us) -> exists t, In (n, t) (combine ns ts) /\ same_type t (snd it) /\ In t ts).
  { clear -K Ln Lt. revert ns us K Ln Lt. induction ts as [|t ts IH]; intros ns [|i us] K Ln Lt n it I; cbn in *; try lia.
    - destruct ns; cbn in I; tauto.
    - destruct ns as [|k ns]; cbn in *; [tauto|]. inversion K; subst. destruct I as [[= -> ->]|I].
      + exists t. auto.
      + destruct (IH ns us) with (n := n) (it := it) as (t' & A & B & C); auto. exists t'. auto. }
  destruct (read_args_good parse left one show ws us ns args) as (ts' & E & R); auto.
  - intros a I. unfold args, make_args_vec in I. apply in_map_iff in I. destruct I as (x & <- & _). reflexivity.
  - intros [n it] I a Ia Fa. cbn [fst snd] in *. destruct (Pair n it I) as (t & It & Kt & It').
    assert (Ea : In (text a) (uses n (map text args))).
    { apply filter_In. split; auto. now apply in_map. }
    rewrite Ta, (used_written ns ts n t) in Ea by auto. destruct Ea as [<-|[]].
    rewrite assigned_written; auto; [discriminate|]. apply in_combine_l in I. destruct (G _ I) as (_ & ? & _); auto.
  - rewrite R. f_equal. f_equal. f_equal.
    + assert (U : forall n t, In (n, t) (combine ns ts) -> uses n (map text args) = [assignment n t]).
      { intros n t I. rewrite Ta. now apply used_written. }
      replace (concat (map (default show args) (combine ns (map snd us)))) with (@nil arg).
      * rewrite app_nil_r. unfold args, make_args_vec. rewrite !map_map. apply map_ext_in. intros [n t] I.
        unfold mark, written. cbn [text read valid orb fst snd]. f_equal.
        apply existsb_exists. exists n. split; [now apply in_combine_l in I|].
        apply is_for_iff, arg_name_assignment, G. now apply in_combine_l in I.
      * symmetry. assert (Z : forall l, (forall n u, In (n, u) l -> used n args = true) -> concat (map (default show args) l) = []).
        { induction l as [|[n u] l IHl]; intros Hl; auto. cbn [map concat]. unfold default at 1. cbn [fst].
          rewrite (Hl n u) by (now left). apply IHl. intros n' u' I'. apply (Hl n' u'). now right. }
        apply Z. intros n u I.
        assert (X : exists it, In (n, it) (combine ns us)).
        { clear -I. revert us I. induction ns as [|k ns IH]; intros [|i us] I; cbn in *; try tauto.
          destruct I as [I|I]; [exists i; left; congruence|]. destruct (IH us I) as (it & ?). eauto. }
        destruct X as (it & X). destruct (Pair n it X) as (t & It & _ & _).
        specialize (U n t It). clear -U. unfold used. unfold uses in U.
        assert (M : In (assignment n t) (filter (is_for n) (map text args))) by (rewrite U; now left).
        apply filter_In in M. destruct M as [M F]. apply in_map_iff in M. destruct M as (a & Ea & Ia).
        apply existsb_exists. exists a. split; auto. now rewrite Ea.
    + clear R. assert (Z : forall n t, In (n, t) (combine ns ts) -> uses n (map text args) = [assignment n t]).
      { intros n t I. rewrite Ta. now apply used_written. }
      clearbody args. clear -left E Z K W G Lt Ln.
      revert ts Lt K W Z. induction E as [|m u us n ns t' ts' E0 E IH]; intros [|t ts] Lt K W Z; cbn in Lt; try lia; auto.
      cbn [map snd] in K. inversion K; subst. f_equal.
      * rewrite (Z n t) in E0 by (now left). unfold ends_as in E0. cbn [rev app] in E0.
        rewrite (assigned_written n t u) in E0; [now injection E0 as ->| |apply W; now left|auto].
        apply (G n). now left.
      * apply IH; auto.
        -- intros k I. apply G. now right.
        -- intros x I. apply W. now right.
        -- intros k x I. apply Z. now right.
Qed.

(* the arguments are not changed by the command line *)
Lemma trimmed : forall n t, good_name n -> writable parse show t -> strip blank_chars (assignment n t) = assignment n t.
Proof.
  intros n t (Sn & _ & _) W. apply strip_core. unfold ArgvSpec.assignment. cbn [lit list_ascii_of_string].
  apply core_cons_app.
  - apply core_of_strip in Sn. right. split; [|exists n, "="%char; split; auto; cbn; intuition discriminate].
    destruct Sn as [->|[(c & r & -> & Nc) _]].
    + exists "="%char, []. split; auto. cbn. intuition discriminate.
    + exists c, (r ++ ["="%char]). auto.
  - cbn. intuition discriminate.
  - apply core_of_strip. destruct t as [x|s|l|l]; cbn [var_text writable] in *.
    + apply clean_strip. tauto.
    + now apply clean_strip.
    + apply strip_brackets.
    + apply strip_brackets.
Qed.
End Vars.

Lemma serialize_words : forall l, (forall s, In s l -> s <> [] /\ free_of blank_chars s) ->
  words_of blank_chars (collapse_sep l (lit " ")) l.
Proof.
  intros l H. rewrite collapse_sep_joined. cbn [lit list_ascii_of_string].
  assert (B : made_of blank_chars [" "%char]) by (intros c [<-|[]]; now left).
  induction l as [|x l IH]; [constructor; intros ? []|].
  destruct (H x) as [Nx Fx]; [now left|]. destruct l as [|y l].
  - cbn [joined]. rewrite <- (app_nil_r x) at 1. change (x ++ []) with ([] ++ x ++ []).
    constructor; auto; [intros ? []|constructor; intros ? []].
  - change (joined (x :: y :: l) [" "%char]) with ([] ++ x ++ [" "%char] ++ joined (y :: l) [" "%char]).
    constructor; auto; [intros ? []| |].
    + right. exists " "%char, (joined (y :: l) [" "%char]). split; auto. now left.
    + apply words_gap; auto. apply IH. intros s I. apply H. now right.
Qed.
