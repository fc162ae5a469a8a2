(* C126: names in a backtrace. *)
From Coq Require Import Ascii String Lia.
From Verif Require Import Base StrModel StrSpec StrProofs PrettyModel PrettySpec PrettyProofs.
Open Scope nat_scope.
Open Scope list_scope.

(* The name of a function: "unsigned long" is written uint_t, the arguments of the outer templates are tidy, and "ul"
   is removed after digits.  This always succeeds. *)
Theorem C126_demangled : forall s, exists w r, cut_at (list_ascii_of_string "unsigned long") s w /\
  tidied (joined w (list_ascii_of_string "uint_t")) r /\ dbg_pretty_demangled s = Ok (no_suffix None r).
Proof.
  intros s. unfold dbg_pretty_demangled. destruct (replace_ok s (lit "unsigned long") (lit "uint_t") ltac:(discriminate)) as (w & E & C). rewrite E. cbn [obind].
  destruct (args_ok (joined w (lit "uint_t"))) as (r & Er & T). rewrite Er. cbn [obind]. exists w, r. split; [exact C|]. split; [exact T|]. apply constants_ok.
Qed.
Print Assumptions C126_demangled.
Lemma untouched s : ~ In "<"%char s -> ~ occurs (lit "unsigned long") s -> dbg_pretty_demangled s = Ok (no_suffix None s).
Proof.
  intros L U. unfold dbg_pretty_demangled. destruct (replace_ok s (lit "unsigned long") (lit "uint_t") ltac:(discriminate)) as (w & E & Cw). rewrite E. cbn [obind].
  assert (W : joined w (lit "uint_t") = s) by (inversion Cw as [s0 H|a b w0 H Cb E0]; subst; [reflexivity|exfalso; apply U; exists (length a), a, b; split; reflexivity]). rewrite W.
  assert (A : args s = Ok s). { destruct (args_ok s) as (r & Er & T). rewrite Er. f_equal. inversion T as [s0 N|a x b t r0 N V A B E0|a x d t N V A E0]; subst; [reflexivity| |]; exfalso; apply L; rewrite <- E0; apply in_or_app; right; left; reflexivity. }
  rewrite A. cbn [obind]. apply constants_ok.
Qed.
(* A name without templates, long integers and constants is not changed. *)
Theorem C126_plain : forall s, ~ In "<"%char s -> ~ occurs (list_ascii_of_string "unsigned long") s -> ~ occurs (list_ascii_of_string "ul") s -> dbg_pretty_demangled s = Ok s.
Proof.
  intros s L U C. rewrite untouched by assumption. rewrite no_suffix_free by exact C. reflexivity.
Qed.
Print Assumptions C126_plain.
(* One template: the arguments are tidy and nothing else changes. *)
Theorem C126_template : forall a x b, ~ In "<"%char a -> ~ In "<"%char b -> level 1 x = Some 1 ->
  exists t, arguments x t /\ args (a ++ ["<"%char] ++ x ++ [">"%char] ++ b) = Ok (a ++ ["<"%char] ++ t ++ [">"%char] ++ b).
Proof.
  intros a x b Na Nb Lx.
  assert (U : forall (c : ascii) (a b a' b' : list ascii), ~ In c a -> ~ In c a' -> a ++ [c] ++ b = a' ++ [c] ++ b' -> a = a' /\ b = b').
  { clear. intros c. induction a as [|d a IH]; intros b [|d' a'] b' N N' E; cbn in E; [split; [reflexivity|congruence]|exfalso; apply N'; left; congruence|exfalso; apply N; left; congruence|]. injection E as -> E2. destruct (IH b a' b') as [-> ->]; [intros I; apply N; right; exact I|intros I; apply N'; right; exact I|exact E2|]. split; reflexivity. }
  assert (Lv : forall y d z, level d y = Some 1 -> level d (y ++ [">"%char] ++ z) = None).
  { clear. induction y as [|c y IH]; intros d z H; cbn in *; [injection H as ->; reflexivity|]. destruct (Ascii.eqb c "<"); [apply IH; exact H|]. destruct (Ascii.eqb c ">"); [destruct d as [|[|d]]; try discriminate; apply IH; exact H|apply IH; exact H]. }
  assert (V : forall y y' d z z', level d y = Some 1 -> level d y' = Some 1 -> y ++ [">"%char] ++ z = y' ++ [">"%char] ++ z' -> y = y' /\ z = z').
  { clear. induction y as [|c y IH]; intros [|c' y'] d z z' H H' E; cbn in E.
    - split; [reflexivity|congruence].
    - injection E as <- E2. cbn in H. injection H as ->. discriminate H'.
    - injection E as -> E2. cbn in H'. injection H' as ->. discriminate H.
    - injection E as -> E2. assert (K : exists e, level e y = Some 1 /\ level e y' = Some 1). { cbn in H, H'. destruct (Ascii.eqb c' "<"); [eauto|]. destruct (Ascii.eqb c' ">"); [destruct d as [|[|d]]; try discriminate; eauto|eauto]. }
      destruct K as (e & K1 & K2). destruct (IH y' e z z' K1 K2 E2) as [-> ->]. split; reflexivity. }
  destruct (args_ok (a ++ ["<"%char] ++ x ++ [">"%char] ++ b)) as (r & Er & T). rewrite Er.
  inversion T as [s0 N|a1 x1 b1 t r0 N V1 A B E0|a1 x1 d t N V1 A E0]; subst.
  - exfalso. apply N. apply in_or_app. right. left. reflexivity.
  - destruct (U _ _ _ _ _ N Na E0) as [-> E1]. destruct (V _ _ _ _ _ V1 Lx E1) as [-> ->]. exists t. split; [exact A|]. inversion B as [s1 M|a2 x2 b2 t2 r2 M V2 A2 B2 E2|a2 x2 d2 t2 M V2 A2 E2]; subst; [reflexivity| |]; exfalso; apply Nb; apply in_or_app; right; left; reflexivity.
  - destruct (U _ _ _ _ _ N Na E0) as [-> E1]. rewrite E1 in V1. pose proof (Lv x 1 b Lx) as K. cbn [app] in K, V1. congruence.
Qed.
Print Assumptions C126_template.
Example ex_demangled : dbg_pretty_demangled (lit "f(vec<2ul, double, void>, unsigned long)") = Ok (lit "f(vec<2,double>, uint_t)").
Proof. vm_compute. reflexivity. Qed.
(* Finding: the bracket of an operator is taken for that of a template: the last character of the name is lost and a
   bracket is added. *)
Theorem C126_operator_refuted : dbg_pretty_demangled (lit "operator<(int, int)") = Ok (lit "operator<(int,int>").
Proof. vm_compute. reflexivity. Qed.
Print Assumptions C126_operator_refuted.
(* Finding: an argument void is also removed when it is the only one. *)
Theorem C126_void_refuted : dbg_pretty_demangled (lit "future<void>") = Ok (lit "future<>").
Proof. vm_compute. reflexivity. Qed.
Print Assumptions C126_void_refuted.
Lemma occurs_prefix (p q r x y : list ascii) : q ++ r = x ++ p ++ y -> length x + length p <= length q -> occurs p q.
Proof.
  intros E L. rewrite app_assoc in E. apply app_eq_app in E. destruct E as (l & [[-> _]|[E _]]).
  - exists (length x), x, l. split; [rewrite <- app_assoc; reflexivity|reflexivity].
  - assert (length l = 0) by (apply (f_equal (@length _)) in E; rewrite !app_length in E; lia). destruct l; [|discriminate]. rewrite app_nil_r in E. subst q. exists (length x), x, []. split; [rewrite app_nil_r; reflexivity|reflexivity].
Qed.
(* Finding: "ul" is also removed from names in which it follows a digit. *)
Theorem C126_digit_refuted : forall a b, ~ In "<"%char (a ++ lit "2ul" ++ b) -> ~ occurs (lit "unsigned long") (a ++ lit "2ul" ++ b) -> ~ occurs (lit "ul") (a ++ lit "2") -> ~ occurs (lit "ul") b ->
  dbg_pretty_demangled (a ++ lit "2ul" ++ b) = Ok (a ++ lit "2" ++ b).
Proof.
  intros a b L U Ca Cb. rewrite untouched by assumption.
  replace (a ++ lit "2ul" ++ b) with ((a ++ lit "2") ++ lit "ul" ++ b) by (rewrite <- app_assoc; reflexivity). rewrite no_suffix_first.
  - unfold prev_of. rewrite rev_app_distr. cbn [rev lit list_ascii_of_string app]. change (digit "2") with true. cbn iota. rewrite no_suffix_free by exact Cb. rewrite <- app_assoc. reflexivity.
  - intros i (x & y & E1 & <-). destruct (Nat.le_gt_cases (length (a ++ lit "2")) (length x)) as [K|K]; [exact K|exfalso].
    assert (K2 : length x + 2 <= length (a ++ lit "2")).
    { rewrite app_length in *. cbn [length lit list_ascii_of_string] in *. destruct (Nat.eq_dec (length x) (length a)) as [K3|K3]; [|lia]. exfalso. rewrite <- app_assoc in E1. assert (Ax : a = x) by (apply (f_equal (firstn (length a))) in E1; rewrite firstn_len_app in E1; rewrite <- K3 in E1 at 1; rewrite firstn_len_app in E1; exact E1).
      subst x. apply app_inv_head in E1. discriminate. }
    apply Ca. apply (occurs_prefix (lit "ul") (a ++ lit "2") (lit "ul" ++ b) x y E1). exact K2.
Qed.
Print Assumptions C126_digit_refuted.
Example ex_digit : dbg_pretty_demangled (lit "h2ultra") = Ok (lit "h2tra").
Proof. vm_compute. reflexivity. Qed.

(* The name of a file generated by the reflection tool is given without directory and mark, other names as they are. *)
Theorem C126_filename : forall f, (forall d n, ~ In "/"%char n -> f = d ++ list_ascii_of_string "/._reflex_" ++ n -> dbg_pretty_filename f = Ok n) /\
  ((forall d n, ~ In "/"%char n -> f <> d ++ list_ascii_of_string "/._reflex_" ++ n) -> dbg_pretty_filename f = Ok f).
Proof.
  intros f. unfold dbg_pretty_filename. pose proof (find_last_all (has (lit "/")) f) as F.
  assert (Hs : forall c, has (lit "/") c = true <-> c = "/"%char) by (intros c; cbn; rewrite Bool.orb_false_r; apply Ascii.eqb_eq).
  destruct (find_last (has (lit "/")) f None) as [k|].
  - destruct F as (a & c & b & -> & -> & Hc & Hb). apply Hs in Hc. subst c. assert (Nb : ~ In "/"%char b) by (intros I; apply Hb in I; rewrite (proj2 (Hs _) eq_refl) in I; discriminate).
    assert (U : forall (a b d n : list ascii), ~ In "/"%char b -> ~ In "/"%char n -> a ++ "/"%char :: b = d ++ "/"%char :: n -> b = n).
    { clear. induction a as [|x a IH]; intros b [|y d] n N N' E; cbn in E; [congruence| | |].
      - exfalso. apply N. injection E as _ ->. apply in_or_app. right. left. reflexivity.
      - exfalso. apply N'. injection E as _ <-. apply in_or_app. right. left. reflexivity.
      - injection E as _ E2. eapply IH; eassumption. }
    change ("/"%char :: b) with (["/"%char] ++ b). rewrite app_assoc. replace (length a + 1) with (length (a ++ ["/"%char])) by (rewrite app_length; reflexivity).
    assert (Sb : forall q k, substr (q ++ b) (length q) k = Ok (firstn k b)) by (intros q k; unfold substr; rewrite app_length; destruct (Nat.leb_spec (length q) (length q + length b)); [|lia]; rewrite skipn_len_app; reflexivity).
    rewrite Sb. cbn [obind]. split.
    + intros d n Nn E. rewrite <- app_assoc in E. cbn [app] in E. assert (Eb : b = lit "._reflex_" ++ n).
      { eapply U; [exact Nb| |exact E]. intros I. apply in_app_or in I. destruct I as [I|I]; [cbn in I; repeat (destruct I as [I|I]; [discriminate|]); exact I|contradiction]. }
      subst b. rewrite firstn_len_app. rewrite (proj2 (eqs_iff _ _) eq_refl). replace (length (a ++ ["/"%char]) + length (lit "._reflex_")) with (length ((a ++ ["/"%char]) ++ lit "._reflex_")) by apply app_length. rewrite app_assoc. apply substr_tail.
    + intros H. destruct (eqs (firstn (length (lit "._reflex_")) b) (lit "._reflex_")) eqn:E; [|reflexivity]. exfalso. apply eqs_iff in E.
      assert (Eb : b = lit "._reflex_" ++ skipn (length (lit "._reflex_")) b) by (rewrite <- E at 1; symmetry; apply firstn_skipn).
      apply (H a (skipn (length (lit "._reflex_")) b)); [intros I; apply Nb; rewrite Eb; apply in_or_app; right; exact I|]. rewrite Eb at 1. rewrite <- app_assoc. reflexivity.
  - split; [|reflexivity]. intros d n _ ->. assert (X : has (lit "/") "/" = false) by (apply F; apply in_or_app; right; left; reflexivity). rewrite (proj2 (Hs _) eq_refl) in X. discriminate.
Qed.
Print Assumptions C126_filename.
(* Finding: without a directory the mark is kept. *)
Theorem C126_filename_refuted : dbg_pretty_filename (lit "._reflex_a.cpp") = Ok (lit "._reflex_a.cpp") /\ dbg_pretty_filename (lit "d/._reflex_a.cpp") = Ok (lit "a.cpp").
Proof. vm_compute. split; reflexivity. Qed.
Print Assumptions C126_filename_refuted.
(* Finding: of "unsigned long long" only the first two words are replaced. *)
Theorem C126_long_long_refuted : dbg_pretty_demangled (lit "f(unsigned long long)") = Ok (lit "f(uint_t long)").
Proof. vm_compute. reflexivity. Qed.
Print Assumptions C126_long_long_refuted.
