From Coq Require Import Ascii String.
From Verif Require Import Base StrModel StrSpec StrProofs VecProofs ArgvModel ArgvSpec ArgvProofs.
Local Open Scope nat_scope.

Definition contains (n s : list ascii) : bool := match sfind n s 0 with Some _ => true | None => false end.
Lemma contains_occurs : forall n s, contains n s = true <-> occurs n s.
Proof.
  intros n s. unfold contains. pose proof (sfind_spec n [] s) as H. cbn [app length] in H.
  destruct (sfind n s 0).
  - split; auto. intros _. destruct H as (a & b & E & _). exists (length a), a, b. auto.
  - split; [discriminate|tauto].
Qed.
Lemma is_for_occurs : forall n a, is_for n a = true -> occurs n a.
Proof.
  intros n a. unfold is_for. destruct (list_eq_dec ascii_dec (arg_name a) n) as [E|]; [|discriminate]. intros _.
  subst n. unfold arg_name.
  assert (U : forall s, exists x, s = x ++ undash s).
  { destruct s as [|c s]; [now exists []|]. cbn. destruct (ascii_dec c "-"%char) as [->|N].
    - now exists ["-"%char]. - now exists []. }
  destruct (after "="%char a) as [v|] eqn:A.
  - apply after_some in A. set (b := before "="%char a) in *. clearbody b. subst a.
    destruct (U b) as (x & Eb). destruct (strip_split blank_chars (undash b)) as (y & z & Ey & _).
    exists (length (x ++ y)), (x ++ y), (z ++ "="%char :: v). split; auto.
    rewrite Eb at 1. rewrite Ey at 1. now rewrite <- !app_assoc.
  - destruct (U a) as (x & Ea). exists (length x), x, []. split; auto. now rewrite app_nil_r.
Qed.

Lemma arg_eta : forall a : arg, Arg (text a) (read a) (valid a) = a.
Proof. now destruct a. Qed.
Lemma mark1 : forall n a, mark [n] a = Arg (text a) (read a || is_for n (text a)) (valid a).
Proof. intros. unfold mark. cbn [existsb]. now rewrite Bool.orb_false_r. Qed.

Section Vars.
Context {V : Type} (parse : text_t -> option V) (left : text_t -> V -> V) (one : V) (show : V -> text_t).
Local Notation assigned := (assigned parse one).
Local Notation spoiled := (spoiled left).
Local Notation convertible := (convertible parse one).
Local Notation read_impl := (read_impl parse left one).
Local Notation read_loop := (read_loop parse left one).
Local Notation read_var := (read_var parse left one show).
Local Notation read_args := (read_args parse left one show).

(* the loop over the arguments, in order *)
Fixpoint pass (n : text_t) (args : list arg) (t : var V) (found : bool) : list arg * var V * bool * bool :=
  match args with
  | [] => ([], t, found, false)
  | a :: args =>
      if is_for n (text a) then
        match assigned t (text a) with
        | Some t' => let '(l, t'', f, w) := pass n args t' true in (Arg (text a) true true :: l, t'', f, w)
        | None => (Arg (text a) true false :: args, spoiled t (text a), found || counted t (text a), true)
        end
      else if contains n (text a) && negb (valid a) then (a :: args, t, found, true)
      else let '(l, t', f, w) := pass n args t found in (a :: l, t', f, w)
  end.
Lemma read_loop_pass : forall n rest pre P t found,
  (forall i a, nth_error rest i = Some a -> P (length pre + i) = contains n (text a)) ->
  read_loop n (filter P (seq (length pre) (length rest))) (pre ++ rest) t found =
    Ok (let '(l, t', f, w) := pass n rest t found in (pre ++ l, t', f, w)).
Proof.
  induction rest as [|a rest IH]; intros pre P t found HP; cbn [length seq filter pass]; auto.
  assert (P0 : P (length pre) = contains n (text a)).
  { rewrite <- (HP 0 a eq_refl), Nat.add_0_r. reflexivity. }
  assert (HP' : forall b i a', nth_error rest i = Some a' -> P (length (pre ++ [b]) + i) = contains n (text a')).
  { intros b i a' Ha. rewrite <- (HP (S i) a' Ha), app_length. f_equal. cbn. lia. }
  assert (L : forall b : arg, S (length pre) = length (pre ++ [b])) by (intros; rewrite app_length; cbn; lia).
  assert (G : oget (pre ++ a :: rest) (length pre) = Ok a).
  { unfold oget. rewrite nth_error_app2, Nat.sub_diag by auto. reflexivity. }
  assert (Se : forall b, oset (pre ++ a :: rest) (length pre) b = Ok (pre ++ b :: rest)).
  { intros b. apply oset_Ok. split; [rewrite app_length; cbn; lia|].
    clear. induction pre; cbn; auto. now f_equal. }
  rewrite P0. destruct (contains n (text a)) eqn:C.
  - cbn [ArgvModel.read_loop]. rewrite G. cbn [obind]. rewrite read_implE. cbn [obind].
    destruct (is_for n (text a)) eqn:F.
    + destruct (assigned t (text a)) as [t'|].
      * rewrite Se. cbn [obind]. rewrite Bool.orb_true_r.
        replace (pre ++ Arg (text a) true true :: rest) with ((pre ++ [Arg (text a) true true]) ++ rest) by now rewrite <- app_assoc.
        rewrite (L (Arg (text a) true true)), IH by apply HP'.
        destruct (pass n rest t' true) as [[[l t''] f] w]. f_equal. now rewrite <- app_assoc.
      * rewrite Se. reflexivity.
    + rewrite Se. cbn [obind]. rewrite arg_eta, Bool.orb_false_r.
      destruct (valid a); cbn [negb andb]; auto.
      replace (pre ++ a :: rest) with ((pre ++ [a]) ++ rest) by now rewrite <- app_assoc.
      rewrite (L a), IH by apply HP'.
      destruct (pass n rest t found) as [[[l t''] f] w]. f_equal. now rewrite <- app_assoc.
  - cbn [andb]. assert (F : is_for n (text a) = false).
    { destruct (is_for n (text a)) eqn:F; auto. apply is_for_occurs, contains_occurs in F. congruence. }
    rewrite F.
    replace (pre ++ a :: rest) with ((pre ++ [a]) ++ rest) by now rewrite <- app_assoc.
    rewrite (L a), IH by apply HP'.
    destruct (pass n rest t found) as [[[l t''] f] w]. f_equal. now rewrite <- app_assoc.
Qed.
Lemma read_varE : forall n args t,
  read_var n args t = Ok (let '(l, t', f, w) := pass n args t false in
    (if f : bool then l else l ++ [Arg (assignment show n t') true true], t', w)).
Proof.
  intros n args t. unfold ArgvModel.read_var.
  rewrite (read_loop_pass n args [] _ t false).
  2:{ intros i a H. cbn [length Nat.add]. now rewrite H. }
  cbn [obind]. destruct (pass n args t false) as [[[l t'] f] w]. rewrite write_argE. reflexivity.
Qed.

(* --- arguments that can all be converted --------------------------------------- *)
Definition same_kind (t u : var V) : Prop :=
  match t, u with
  | Scalar _, Scalar _ | Text _, Text _ | Vector _, Vector _ | Texts _, Texts _ => True
  | _, _ => False
  end.
Lemma kind_assigned : forall t u a, same_kind t u -> assigned u a = assigned t a.
Proof. intros [] [] a; cbn; tauto. Qed.
Lemma assigned_kind : forall t a t', assigned t a = Some t' -> same_kind t t'.
Proof.
  intros t a t'. unfold ArgvSpec.assigned. destruct (after "="%char a).
  - destruct t; cbn; intros H.
    + destruct (parse _); [injection H as <-; cbn; auto|discriminate].
    + injection H as <-; cbn; auto.
    + destruct (values _ _); [injection H as <-; cbn; auto|discriminate].
    + destruct (values _ _); [injection H as <-; cbn; auto|discriminate].
  - intros [= <-]. destruct t; cbn; auto.
Qed.
Lemma kind_refl : forall t, same_kind t t. Proof. now intros []. Qed.
Lemma kind_trans : forall a b c, same_kind a b -> same_kind b c -> same_kind a c.
Proof. intros [] [] []; cbn; tauto. Qed.
Lemma ends_as_cons : forall t a us t1 t2, assigned t a = Some t1 -> ends_as parse one t1 us t2 ->
  ends_as parse one t (a :: us) t2.
Proof.
  intros t a us t1 t2 H1 H2. unfold ends_as in *. cbn [rev]. destruct (rev us) as [|b r] eqn:E; cbn [app].
  - now subst t2.
  - rewrite <- H2. apply kind_assigned with (t := t1). apply assigned_kind in H1. clear -H1. destruct t, t1; cbn in *; tauto.
Qed.
Lemma ends_as_kind : forall t us t', ends_as parse one t us t' -> same_kind t t'.
Proof.
  intros t us t' H. unfold ends_as in H. destruct (rev us); [subst; apply kind_refl|]. now apply assigned_kind in H.
Qed.
Lemma ends_as_fun : forall t us t1 t2, ends_as parse one t us t1 -> ends_as parse one t us t2 -> t1 = t2.
Proof. intros t us t1 t2. unfold ends_as. destruct (rev us); congruence. Qed.


Lemma pass_good : forall n pre l t found, all_valid pre -> convertible n t pre ->
  exists t1, ends_as parse one t (uses n (map text pre)) t1 /\
    pass n (pre ++ l) t found = let '(l', t', f, w) := pass n l t1 (found || used n pre) in (map (mark [n]) pre ++ l', t', f, w).
Proof.
  induction pre as [|a pre IH]; intros l t found Va Co.
  - exists t. split; [reflexivity|]. cbn [used existsb app map]. rewrite Bool.orb_false_r.
    destruct (pass n l t found) as [[[? ?] ?] ?]. reflexivity.
  - assert (Va' : all_valid pre) by (intros x I; apply Va; now right).
    assert (V0 : valid a = true) by (apply Va; now left).
    cbn [map app pass uses filter used existsb]. unfold uses in IH. rewrite mark1.
    destruct (is_for n (text a)) eqn:F.
    + destruct (assigned t (text a)) as [t0|] eqn:A; [|exfalso; apply (Co a); auto; now left].
      destruct (IH l t0 true Va') as (t1 & E1 & E2).
      { intros x I Fx. rewrite (kind_assigned t t0) by now apply assigned_kind in A. apply Co; auto. now right. }
      exists t1. split; [eapply ends_as_cons; eauto|]. rewrite E2. cbn [orb]. rewrite !Bool.orb_true_r.
      destruct (pass n l t1 true) as [[[? ?] ?] ?]. now rewrite V0.
    + rewrite V0. cbn [negb]. rewrite Bool.andb_false_r, Bool.orb_false_r.
      destruct (IH l t found Va') as (t1 & E1 & E2).
      { intros x I. apply Co. now right. }
      exists t1. split; auto. rewrite E2. cbn [orb].
      destruct (pass n l t1 _) as [[[? ?] ?] ?]. rewrite <- (arg_eta a) at 1. now rewrite V0.
Qed.

Lemma read_var_good : forall n args t, all_valid args -> convertible n t args ->
  exists t', ends_as parse one t (uses n (map text args)) t' /\
    read_var n args t = Ok (map (mark [n]) args ++ (if used n args then [] else [Arg (assignment show n t) true true]), t', false).
Proof.
  intros n args t Va Co. destruct (pass_good n args [] t false Va Co) as (t' & E1 & E2).
  exists t'. split; auto. rewrite read_varE. rewrite app_nil_r in E2. rewrite E2. cbn [pass orb].
  rewrite app_nil_r. destruct (used n args) eqn:U; [now rewrite app_nil_r|].
  assert (X : uses n (map text args) = []).
  { unfold uses. clear -U. induction args as [|a args IH]; auto. cbn in *. apply Bool.orb_false_iff in U. destruct U as [-> U]. auto. }
  rewrite X in E1. cbn in E1. now subst t'.
Qed.
Lemma read_var_bad : forall n pre a post t, all_valid pre -> convertible n t pre ->
  is_for n (text a) = true -> assigned t (text a) = None ->
  exists t', ends_as parse one t (uses n (map text pre)) t' /\
    read_var n (pre ++ a :: post) t =
      Ok (map (mark [n]) pre ++ [Arg (text a) true false] ++ post ++
            (if used n pre || counted t (text a) then [] else [Arg (assignment show n t) true true]),
          spoiled t' (text a), true).
Proof.
  intros n pre a post t Va Co F A. destruct (pass_good n pre (a :: post) t false Va Co) as (t' & E1 & E2).
  exists t'. split; auto. rewrite read_varE, E2. cbn [orb pass]. rewrite F.
  assert (K : same_kind t t') by now apply ends_as_kind in E1.
  assert (A' : assigned t' (text a) = None).
  { rewrite <- A. now apply kind_assigned. }
  rewrite A'. assert (C : counted t' (text a) = counted t (text a)).
  { clear -K. destruct t, t'; cbn in *; tauto. }
  rewrite C. destruct (used n pre || counted t (text a)) eqn:E.
  - now rewrite app_nil_r.
  - apply Bool.orb_false_iff in E. destruct E as [U Ct].
    assert (X : uses n (map text pre) = []).
    { unfold uses. clear -U. induction pre as [|x pre IH]; auto. cbn in *. apply Bool.orb_false_iff in U. destruct U as [-> U]. auto. }
    rewrite X in E1. cbn in E1. subst t'. rewrite <- !app_assoc. cbn [app].
    assert (Sp : spoiled t (text a) = t).
    { unfold ArgvSpec.spoiled. unfold counted in Ct. destruct t; try discriminate; reflexivity. }
    now rewrite Sp.
Qed.
End Vars.
