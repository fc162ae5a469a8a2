(* C78: names of the columns given as macro arguments. *)
From Coq Require Import Ascii String.
From Verif Require Import Base StrModel StrSpec StrProofs NumModel ArgvModel ArgvSpec ArgvProofs MacroModel MacroSpec MacroProofs.
Local Open Scope nat_scope.

(* The text of a list of arguments is split at the commas outside of brackets, and each part is trimmed. *)
Theorem C78_split : forall ws, ws <> [] -> (forall w, In w ws -> expression w /\ ~ made_of gaps w) ->
  split_names (joined ws [","%char]) = Ok (map (strip gaps) ws).
Proof.
  intros ws N H. change gaps with spacing in *. unfold split_names.
  rewrite split_loop_ok; auto; apply Forall_forall; intros; now apply H.
Qed.
Print Assumptions C78_split.
Example C78_split_ex :
  split_names (lit "a, cat.flux(_,0) ,f({1,2},g(x))") = Ok [lit "a"; lit "cat.flux(_,0)"; lit "f({1,2},g(x))"].
Proof. vm_compute. reflexivity. Qed.
Example C78_expression_ex : expression (lit "f(a,{b})") /\ ~ expression (lit "a,b").
Proof.
  split.
  - apply nested_char; [cbn; intuition discriminate|cbn; intuition discriminate|].
    apply (nested_group _ "("%char ")"%char (lit "a,{b}") []); [left; auto| |constructor].
    apply nested_char; [cbn; intuition discriminate|tauto|]. apply nested_char; [cbn; intuition discriminate|tauto|].
    apply (nested_group _ "{"%char "}"%char (lit "b") []); [right; right; auto| |constructor].
    apply nested_char; [cbn; intuition discriminate|tauto|constructor].
  - intros H. remember (lit "a,b") as t eqn:E. destruct H as [|c r N1 N2 H2|o c b r P _ _]; [discriminate| |].
    + injection E as E1 E2. change (r = lit ",b") in E2. rewrite E2 in H2.
      remember (lit ",b") as u eqn:Eu. destruct H2 as [|c' r' N3 N4 _|o c' b r' P _ _]; [discriminate| |].
      * injection Eu as E3 _. subst c'. apply N4. now left.
      * injection Eu as E3 _. subst o. destruct P as [[P _]|[[P _]|[P _]]]; discriminate.
    + injection E as E1 _. subst o. destruct P as [[P _]|[[P _]|[P _]]]; discriminate.
Qed.
(* The arguments are found one after the other, as the reading and writing of FITS tables do. *)
Theorem C78_pop : forall w rest, expression w -> ~ made_of gaps w ->
  pop_name w = Ok (strip gaps w, []) /\ pop_name (w ++ ","%char :: rest) = Ok (strip gaps w, rest).
Proof.
  intros w rest X N. change gaps with spacing in *. split.
  - rewrite <- (app_nil_r w) at 1. now rewrite pop_name_ok by auto.
  - now rewrite pop_name_ok by eauto.
Qed.
Print Assumptions C78_pop.
Example C78_pop_ex : pop_name (lit " x[f(1,2)] ,y") = Ok (lit "x[f(1,2)]", lit "y").
Proof. vm_compute. reflexivity. Qed.

(* The parsing always ends. *)
Theorem C78_total : forall s, split_names s <> Diverge.
Proof. intros s. apply split_loop_total. lia. Qed.
Print Assumptions C78_total.

(* The column names are the arguments without what precedes their first dot; a vec<2> has one numbered name
   for each of its columns. *)
Theorem C78_header : forall ws args, ws <> [] -> length ws = length args ->
  (forall w, In w ws -> expression w /\ ~ made_of gaps w) -> ~ In (Some 0) args ->
  exists ns hs, Forall2 (fun w n => baked (strip gaps w) n) ws ns /\ header_names (fun j => to_string (Z.of_nat j)) ns args hs /\
    macro_header (joined ws [","%char]) args = Ok hs.
Proof.
  intros ws args N L H Z. change gaps with spacing in *.
  assert (B : exists ns, Forall2 (fun w n => baked (strip spacing w) n) ws ns).
  { clear. induction ws as [|w ws (ns & IH)]; [exists []; constructor|]. destruct (baked_total (strip spacing w)) as (n & B).
    exists (n :: ns). now constructor. }
  destruct B as (ns & B).
  assert (Hh : exists hs, header_names (fun j => to_string (Z.of_nat j)) ns args hs).
  { clear N H. revert args L Z. induction B as [|w n ws ns _ _ IH]; intros [|a args] L Z; try discriminate; [exists []; constructor|].
    injection L as L. destruct (IH args L) as (hs & Hs); [intros I; apply Z; now right|].
    destruct a as [k|].
    - eexists. constructor; [constructor|exact Hs]. destruct k; [exfalso; apply Z; now left|lia].
    - eexists. constructor; [constructor|exact Hs]. }
  destruct Hh as (hs & Hh). exists ns, hs. split; [exact B|]. split; [exact Hh|].
  apply (macro_header_ok ws ns); auto; apply Forall_forall; intros; now apply H.
Qed.
Print Assumptions C78_header.
Example C78_header_ex :
  macro_header (lit "cat.id, flux, err") [None; Some 3; None] = Ok [lit "id"; lit "flux_1"; lit "flux_2"; lit "flux_3"; lit "err"].
Proof. vm_compute. reflexivity. Qed.
(* The names and their numbers are determined by the arguments. *)
Theorem C78_header_unique : forall num ns args hs hs', header_names num ns args hs -> header_names num ns args hs' -> hs = hs'.
Proof.
  intros num ns args hs hs' H. revert hs'. induction H as [|n a ns args h hs C _ IH]; intros hs' H'; inversion H'; subst; auto.
  f_equal; auto. inversion C; subst; match goal with X : column_names _ _ _ _ |- _ => inversion X; subst; reflexivity end.
Qed.
Print Assumptions C78_header_unique.
Theorem C78_bake : forall t n, bake t = Ok n <-> baked t n.
Proof.
  intros t n. split; [|apply bake_ok]. intros E. destruct (baked_total t) as (m & B). rewrite (bake_ok _ _ B) in E. now injection E as <-.
Qed.
Print Assumptions C78_bake.

(* Finding (ascii.hpp:719-726): the first dot is not always the one of a member access on the variable: in
   a number, or inside of the brackets of a call, the name is cut at another place.  read_args() uses the
   last dot for the same purpose, and a member of a member keeps a part of its path. *)
Theorem C78_dot_refuted :
  bake (lit "flux*1.5") = Ok (lit "5") /\ bake (lit "log10(cat.flux)") = Ok (lit "flux)") /\
  bake (lit "field.cat.flux") = Ok (lit "cat.flux").
Proof. repeat split; vm_compute; reflexivity. Qed.
Print Assumptions C78_dot_refuted.
(* Finding (ascii.hpp:741-752): brackets inside of string or character literals are counted: the macro list
   of a correct program makes the program stop, with "library bug", or reads the back of an empty vector. *)
Theorem C78_literal_UB :
  split_names (lit "name(v, "")"")") = UB /\ split_names (lit "name(v, ""]"")") = CheckFail /\
  split_names (lit "name(v, ""("") , w") = Ok [lit "name(v, ""("") , w"].
Proof. repeat split; vm_compute; reflexivity. Qed.
Print Assumptions C78_literal_UB.
(* Finding (ascii.hpp:754-766): an empty name is not given as such: all that follows is given with it.  A list
   that is empty, or ends with a comma and a blank, throws. *)
Theorem C78_empty_refuted :
  split_names (lit ",b") = Ok [lit ",b"; lit "b"] /\ split_names (lit "a, ,b") = Ok [lit "a"; lit ",b"; lit "b"] /\
  split_names (lit "") = Throws /\ split_names (lit "a, ") = Throws /\ split_names (lit "a,") = Ok [lit "a"].
Proof. repeat split; vm_compute; reflexivity. Qed.
Print Assumptions C78_empty_refuted.
(* Finding (ascii.hpp:798): the header for a vec<2> without columns takes the range from the second to the last of
   no names. *)
Theorem C78_no_column_UB : forall vnames i args, i < length vnames -> fix_2d vnames i (Some 0 :: args) = UB.
Proof.
  intros vnames i args H. cbn [fix_2d]. unfold check. rewrite (proj2 (Nat.ltb_lt _ _) H). cbn [Base.obind]. unfold oget.
  destruct (nth_error vnames i) eqn:E; [reflexivity|]. apply nth_error_None in E. lia.
Qed.
Print Assumptions C78_no_column_UB.
