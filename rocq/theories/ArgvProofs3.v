From Coq Require Import Ascii String.
From Verif Require Import Base StrModel StrSpec StrProofs VecProofs ArgvModel ArgvSpec ArgvProofs ArgvProofs2.
Local Open Scope nat_scope.

(* --- the names of the variables -------------------------------------------------- *)
Lemma after_dots_none : forall s, ~ In "."%char s -> after_dots s = s.
Proof.
  induction s as [|c s IH]; cbn; auto. intros N. destruct (in_dec ascii_dec "."%char s); [tauto|].
  destruct (ascii_dec c "."%char); [tauto|auto].
Qed.
Lemma after_dots_last : forall a b, ~ In "."%char b -> after_dots (a ++ "."%char :: b) = b.
Proof.
  induction a as [|c a IH]; intros b N; cbn.
  - destruct (in_dec ascii_dec "."%char b); [tauto|]. destruct (ascii_dec "."%char "."%char); tauto.
  - destruct (in_dec ascii_dec "."%char (a ++ "."%char :: b)) as [|M]; auto.
    exfalso. apply M, in_or_app. right. now left.
Qed.
Definition var_name (w : text_t) : text_t := strip blank_chars (after_dots (strip blank_chars w)).
Lemma name_of_piece : forall w,
  (n <- trim w blanks ;;
   match find_last (has ["."%char]) n None with
   | Some p => n <- substr_end n (p + 1) ;; trim n blanks
   | None => Ok n
   end) = Ok (var_name w).
Proof.
  intros w. rewrite trim_strip, blanks_eq. cbn [obind]. unfold var_name. set (n := strip blank_chars w).
  assert (En : strip blank_chars n = n) by apply strip_idem. clearbody n.
  pose proof (find_last_all (has ["."%char]) n) as H. destruct (find_last (has ["."%char]) n None) as [p|].
  - destruct H as (a & c & b & E & -> & Hc & Hb). apply has_In in Hc. destruct Hc as [<-|[]].
    rewrite E. rewrite after_dots_last.
    2:{ intros I. specialize (Hb _ I). apply has_false in Hb. apply Hb. now left. }
    replace (length a + 1) with (length (a ++ ["."%char])) by (rewrite app_length; cbn; lia).
    replace (a ++ "."%char :: b) with ((a ++ ["."%char]) ++ b) by now rewrite <- app_assoc.
    rewrite substr_tail. cbn [obind]. now rewrite trim_strip.
  - rewrite after_dots_none; [now rewrite En|]. intros I. specialize (H _ I). apply has_false in H. apply H. now left.
Qed.
Lemma obind_assoc' : forall A B C (x : outcome A) (f : A -> outcome B) (g : B -> outcome C),
  obind (obind x f) g = obind x (fun a => obind (f a) g).
Proof. intros. now destruct x. Qed.
Lemma split_name_last : forall w, ~ In ","%char w -> split_name w = Ok (var_name w, None).
Proof.
  intros w N. unfold split_name. rewrite find_charE. apply after_none in N. rewrite N. cbn [obind].
  rewrite <- obind_assoc', name_of_piece. reflexivity.
Qed.
Lemma split_name_more : forall w r, ~ In ","%char w -> split_name (w ++ ","%char :: r) = Ok (var_name w, Some (length w)).
Proof.
  intros w r N. unfold split_name. rewrite find_charE. destruct (after_app ","%char w r N) as [-> ->].
  pose proof (substr_mid [] w (","%char :: r)) as M. cbn [app length] in M. rewrite M. cbn [obind].
  rewrite <- obind_assoc', name_of_piece. reflexivity.
Qed.

Lemma substr_after : forall (w : text_t) c (r : text_t), substr_end (w ++ c :: r) (length w + 1) = Ok r.
Proof.
  intros. replace (length w + 1) with (length (w ++ [c])) by (rewrite app_length; cbn; lia).
  replace (w ++ c :: r) with ((w ++ [c]) ++ r) by now rewrite <- app_assoc. apply substr_tail.
Qed.
Lemma is_for_iff : forall n a, is_for n a = true <-> arg_name a = n.
Proof. intros. unfold is_for. destruct (list_eq_dec ascii_dec (arg_name a) n); split; congruence. Qed.
Lemma used_uses : forall n args args', uses n (map text args) = uses n (map text args') -> used n args = used n args'.
Proof.
  assert (G : forall n args, used n args = match uses n (map text args) with [] => false | _ => true end).
  { intros n. induction args as [|a args IH]; auto. cbn. destruct (is_for n (text a)); auto. }
  intros n args args' H. now rewrite !G, H.
Qed.
Lemma mark_text : forall ns args, map text (map (mark ns) args) = map text args.
Proof. intros. rewrite map_map. now apply map_ext. Qed.
Lemma mark_mark : forall n ns args, map (mark ns) (map (mark [n]) args) = map (mark (n :: ns)) args.
Proof.
  intros. rewrite map_map. apply map_ext. intros a. unfold mark. cbn [text read valid existsb]. f_equal.
  rewrite Bool.orb_false_r. now rewrite Bool.orb_assoc.
Qed.

Section Vars.
Context {V : Type} (parse : text_t -> option V) (left : text_t -> V -> V) (one : V) (show : V -> text_t).
Local Notation assigned := (assigned parse one).
Local Notation read_var := (read_var parse left one show).
Local Notation read_args := (read_args parse left one show).
Local Notation write_args := (write_args parse left one show).
Local Notation assignment := (assignment show).
Local Notation default := (default show).
Local Notation all_end := (all_end parse one).

(* the variables read one after the other *)
Fixpoint read_all (args : list arg) (its : list (item V)) (ns : list text_t) : outcome (list arg * list (var V) * list text_t) :=
  match its, ns with
  | (_, t) :: its, n :: ns =>
      '(args, t, w) <- read_var n args t ;;
      '(args, ts, ws) <- read_all args its ns ;;
      Ok (args, t :: ts, (if w : bool then [n] else []) ++ ws)
  | _, _ => Ok (args, [], [])
  end.
Lemma read_args_all : forall ws its ns args, name_it_all ws its ns ->
  read_args args (joined ws [","%char]) its = read_all args its ns.
Proof.
  induction ws as [|w ws IH]; intros [|[m t] its] [|n ns] args H; cbn in H; try tauto; auto.
  destruct H as [Hn H]. cbn [ArgvModel.read_args read_all]. destruct m as [m|]; unfold names_it in Hn; cbn [fst] in Hn.
  - destruct Hn as (-> & u & Ew & Nu).
    rewrite read_varE. destruct (pass parse left one n args t false) as [[[l t'] f] wn]. cbn [obind].
    rewrite find_charE. destruct ws as [|w' ws].
    + cbn [joined]. rewrite Ew. destruct (after_app ")"%char u [] Nu) as [-> ->].
      rewrite app_length. cbn [length]. rewrite Nat.eqb_refl.
      destruct its as [|? ?], ns; cbn in H; try tauto. cbn [map read_all obind].
      now rewrite app_nil_r.
    + cbn [joined]. change (joined (w' :: ws) [","%char]) with (joined (w' :: ws) [","%char]).
      set (J := match ws with [] => w' | _ :: _ => w' ++ [","%char] ++ joined ws [","%char] end).
      assert (EJ : J = joined (w' :: ws) [","%char]) by (destruct ws; reflexivity). clearbody J.
      rewrite Ew. rewrite <- app_assoc. cbn [app].
      destruct (after_app ")"%char u (","%char :: J) Nu) as [-> ->].
      rewrite app_length. cbn [length]. destruct (Nat.eqb_spec (length u + 1) (length u + S (S (length J)))); [lia|].
      replace (length u + 2) with (length (u ++ [")"%char]) + 1) by (rewrite app_length; cbn; lia).
      replace (u ++ ")"%char :: ","%char :: J) with ((u ++ [")"%char]) ++ ","%char :: J) by now rewrite <- app_assoc.
      rewrite substr_after. cbn [obind]. rewrite EJ, (IH its ns) by auto. reflexivity.
  - destruct Hn as [Nw En]. fold (var_name w) in En. destruct ws as [|w' ws].
    + cbn [joined]. rewrite split_name_last by auto. cbn [obind]. rewrite En.
      destruct its as [|? ?], ns; cbn in H; try tauto. cbn [read_all].
      rewrite read_varE. destruct (pass parse left one n args t false) as [[[l t'] f] wn]. cbn [obind].
      now rewrite app_nil_r.
    + cbn [joined].
      set (J := match ws with [] => w' | _ :: _ => w' ++ [","%char] ++ joined ws [","%char] end).
      assert (EJ : J = joined (w' :: ws) [","%char]) by (destruct ws; reflexivity). clearbody J.
      cbn [app]. rewrite split_name_more by auto. cbn [obind]. rewrite En.
      rewrite read_varE. destruct (pass parse left one n args t false) as [[[l t'] f] wn]. cbn [obind].
      rewrite substr_after. cbn [obind]. rewrite EJ, (IH its ns) by auto. reflexivity.
Qed.

Lemma too_few : forall ws its args, ws <> [] -> (forall w, In w ws -> ~ In ","%char w) ->
  (forall it, In it its -> fst it = None) -> length ws < length its ->
  read_args args (joined ws [","%char]) its = Throws.
Proof.
  induction ws as [|w ws IH]; intros [|[m t] its] args H0 Hw Hi L; cbn [length] in L; try tauto; try lia.
  assert (m = None) by (apply (Hi (m, t)); now left). subst m. cbn [ArgvModel.read_args].
  assert (Nw : ~ In ","%char w) by (apply Hw; now left).
  destruct ws as [|w' ws].
  - cbn [joined]. rewrite split_name_last by auto. cbn [obind]. rewrite read_varE.
    destruct (pass _ _ _ _ _ _ _) as [[[l t'] f] wn]. cbn [obind]. destruct its; [cbn in L; lia|reflexivity].
  - cbn [joined].
    set (J := match ws with [] => w' | _ :: _ => w' ++ [","%char] ++ joined ws [","%char] end).
    assert (EJ : J = joined (w' :: ws) [","%char]) by (destruct ws; reflexivity). clearbody J.
    cbn [app]. rewrite split_name_more by auto. cbn [obind].
    rewrite read_varE. destruct (pass _ _ _ _ _ _ _) as [[[l t'] f] wn]. cbn [obind].
    rewrite substr_after. cbn [obind]. rewrite EJ, IH; auto; [discriminate| | |].
    + intros x I. apply Hw. now right.
    + intros x I. apply Hi. now right.
    + cbn [length] in *. lia.
Qed.

(* --- all the variables ------------------------------------------------------------ *)
Lemma arg_name_assignment : forall n t, good_name n -> arg_name (assignment n t) = n.
Proof.
  intros n t (S & E & D). unfold arg_name, ArgvSpec.assignment. cbn [lit list_ascii_of_string app].
  destruct (after_app "="%char n (var_text show t) E) as [-> ->].
  assert (U : undash n = n).
  { destruct n as [|c n]; auto. cbn. destruct (ascii_dec c "-"%char) as [->|]; auto. exfalso. eapply D; eauto. }
  now rewrite U.
Qed.
Lemma is_for_assignment : forall m n t, good_name n -> m <> n -> is_for m (assignment n t) = false.
Proof.
  intros m n t G D. destruct (is_for m (assignment n t)) eqn:F; auto. apply is_for_iff in F.
  rewrite arg_name_assignment in F by auto. congruence.
Qed.
Lemma all_end_ext : forall args args' its ns ts,
  (forall n, In n ns -> uses n (map text args) = uses n (map text args')) -> all_end args its ns ts -> all_end args' its ns ts.
Proof.
  intros args args' its ns ts H E. induction E; constructor.
  - rewrite <- H; auto. now left.
  - apply IHE. intros x I. apply H. now right.
Qed.

Lemma read_all_good : forall its ns args, length its = length ns -> NoDup ns -> (forall n, In n ns -> good_name n) ->
  all_valid args -> (forall nit, In nit (combine ns its) -> convertible parse one (fst nit) (snd (snd nit)) args) ->
  exists ts, all_end args its ns ts /\
    read_all args its ns = Ok (map (mark ns) args ++ concat (map (default args) (combine ns (map snd its))), ts, []).
Proof.
  induction its as [|[m t] its IH]; intros [|n ns] args L Nd G Va Co; cbn [length] in L; try lia.
  - exists []. split; [constructor|]. cbn. rewrite app_nil_r. f_equal. f_equal. f_equal.
    rewrite <- (map_id args) at 1. apply map_ext. intros a. unfold mark. cbn. rewrite Bool.orb_false_r. symmetry. apply arg_eta.
  - inversion Nd as [|? ? Nn Nd']; subst.
    destruct (read_var_good parse left one show n args t Va) as (t' & E1 & E2).
    { apply (Co (n, (m, t))). cbn. now left. }
    cbn [read_all]. rewrite E2. cbn [obind].
    set (d := if used n args then [] else [Arg (assignment n t) true true]) in *.
    set (args1 := map (mark [n]) args ++ d).
    assert (D : forall k, In k ns -> forall a, In a d -> is_for k (text a) = false).
    { intros k I a Ia. unfold d in Ia. destruct (used n args); [destruct Ia|]. destruct Ia as [<-|[]]. cbn [text].
      apply is_for_assignment; [apply G; now left|]. intros ->. contradiction. }
    assert (U : forall k, In k ns -> uses k (map text args1) = uses k (map text args)).
    { intros k I. unfold args1, uses. rewrite map_app, mark_text, filter_app.
      replace (filter (is_for k) (map text d)) with (@nil text_t); [apply app_nil_r|].
      specialize (D k I). clear -D. induction d as [|a d IHd]; auto. cbn. rewrite D by (now left). apply IHd.
      intros x Ix. apply D. now right. }
    destruct (IH ns args1) as (ts & F1 & F2).
    + lia.
    + auto.
    + intros k I. apply G. now right.
    + intros a I. apply in_app_or in I. destruct I as [I|I].
      * apply in_map_iff in I. destruct I as (b & <- & I). cbn [mark valid]. now apply Va.
      * unfold d in I. destruct (used n args); [destruct I|]. destruct I as [<-|[]]. reflexivity.
    + intros [k [m' t0]] I a Ia Fa. cbn [fst snd] in *.
      assert (Ik : In k ns) by now apply in_combine_l in I.
      apply in_app_or in Ia. destruct Ia as [Ia|Ia]; [|rewrite D in Fa by auto; discriminate].
      apply in_map_iff in Ia. destruct Ia as (b & <- & Ib). cbn [mark text] in *.
      apply (Co (k, (m', t0))); auto. cbn. now right.
    + exists (t' :: ts). split.
      * constructor; auto. eapply all_end_ext; [|exact F1]. exact U.
      * rewrite F2. cbn [obind app]. f_equal. f_equal. f_equal. unfold args1.
        cbn [map snd combine concat]. rewrite map_app, mark_mark.
        replace (map (mark ns) d) with d.
        2:{ unfold d. destruct (used n args); auto. }
        rewrite <- app_assoc. f_equal. unfold ArgvSpec.default at 2. cbn [fst snd]. fold d. f_equal. f_equal.
        apply map_ext_in. intros [k t0] I. unfold ArgvSpec.default. cbn [fst snd].
        rewrite (used_uses k (map (mark [n]) args ++ d) args); auto. apply U. now apply in_combine_l in I.
Qed.

Lemma read_args_good : forall ws its ns args, name_it_all ws its ns -> NoDup ns -> (forall n, In n ns -> good_name n) ->
  all_valid args -> (forall nit, In nit (combine ns its) -> convertible parse one (fst nit) (snd (snd nit)) args) ->
  exists ts, all_end args its ns ts /\
    read_args args (joined ws [","%char]) its =
      Ok (map (mark ns) args ++ concat (map (default args) (combine ns (map snd its))), ts, []).
Proof.
  intros ws its ns args H Nd G Va Co. rewrite (read_args_all ws its ns) by auto.
  apply read_all_good; auto. clear -H. revert its ns H. induction ws as [|w ws IH]; intros [|? ?] [|? ?] H; cbn in *; try tauto.
  f_equal. apply IH. tauto.
Qed.
End Vars.
