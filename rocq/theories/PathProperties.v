(* C35: paths. *)
From Coq Require Import Ascii String.
From Verif Require Import Base StrModel StrSpec StrProofs StrProofs2 PathModel PathProofs.
Local Open Scope list_scope.
Definition lit (s : string) : list ascii := list_ascii_of_string s.
Notation length := List.length.

Theorem C35_no_slash : forall p, ~ In slash p -> get_basename p = Ok p /\ get_directory p = Ok (lit "./").
Proof. exact no_slash_ok. Qed.
Print Assumptions C35_no_slash.
(* directory + base name is the path *)
Theorem C35_split : forall d b, ~ In slash b -> ~ (forall x, In x b -> x = space) ->
  get_directory (d ++ slash :: b) = Ok (d ++ [slash]) /\ get_basename (d ++ slash :: b) = Ok b.
Proof. intros d b N S. destruct (plain_ok d b N S). auto. Qed.
Print Assumptions C35_split.
(* a trailing slash, possibly followed by spaces, is ignored when another one comes before *)
Theorem C35_trailing_slash : forall d b sp, ~ In slash b -> (forall x, In x sp -> x = space) ->
  get_directory (d ++ slash :: b ++ slash :: sp) = Ok (d ++ [slash]) /\
  get_basename (d ++ slash :: b ++ slash :: sp) = Ok b.
Proof. intros d b sp N S. destruct (trailing_ok d b sp N S). auto. Qed.
Print Assumptions C35_trailing_slash.
Theorem C35_root : forall sp, (forall x, In x sp -> x = space) ->
  get_directory (slash :: sp) = Ok [slash] /\ get_basename (slash :: sp) = Ok [slash].
Proof. intros sp S. destruct (root_ok sp S). auto. Qed.
Print Assumptions C35_root.
(* unlike basename(1), "dir/" gives "/" *)
Theorem C35_trailing_slash_refuted : forall b sp, b <> [] -> ~ In slash b -> (forall x, In x sp -> x = space) ->
  get_basename (b ++ slash :: sp) = Ok (slash :: sp) /\ get_directory (b ++ slash :: sp) = Ok (lit "./").
Proof. exact single_ok. Qed.
Print Assumptions C35_trailing_slash_refuted.
(* these cases are all the paths *)
Theorem C35_cases : forall p, ~ In slash p \/
  (exists d b, p = d ++ slash :: b /\ ~ In slash b /\ ~ (forall x, In x b -> x = space)) \/
  (exists sp, (forall x, In x sp -> x = space) /\
    (p = slash :: sp \/ (exists b, p = b ++ slash :: sp /\ b <> [] /\ ~ In slash b) \/
     exists d b, p = d ++ slash :: b ++ slash :: sp /\ ~ In slash b)).
Proof.
  intros p. destruct (last_split slash p) as [N|(d & b & -> & N)]; [auto|]. right.
  destruct (all_spaces_dec b) as [S|S]; [|left; eauto]. right. exists b. split; [exact S|].
  destruct d as [|c d]; [now left|]. right. destruct (last_split slash (c :: d)) as [N2|(d' & b' & E & N2)].
  - left. exists (c :: d). repeat split; auto. discriminate.
  - right. exists d', b'. rewrite E, <- app_assoc. auto.
Qed.
Print Assumptions C35_cases.
Theorem C35_extension : forall s, exists a e, remove_extension s = Ok a /\ get_extension s = Ok e /\
  split_extension s = Ok (a, e) /\ a ++ e = s /\
  (e = [] /\ ~ In dot s \/ exists t, e = dot :: t /\ ~ In dot t).
Proof.
  intros s. destruct (last_split dot s) as [N|(a & b & -> & N)].
  - destruct (extension_none s N) as (A & B & C). exists s, []. rewrite app_nil_r. repeat split; auto.
  - destruct (extension_some a b N) as (A & B & C). exists a, (dot :: b). repeat split; auto. right. eauto.
Qed.
Print Assumptions C35_extension.
(* the dot may belong to a directory *)
Theorem C35_extension_refuted : exists d b e, ~ In dot b /\ ~ In slash b /\
  get_basename (d ++ slash :: b) = Ok b /\ get_extension (d ++ slash :: b) = Ok e /\ e <> [].
Proof. exists (lit "a.d"), (lit "b"), (lit ".d/b"). cbn. repeat split; intuition discriminate. Qed.
Print Assumptions C35_extension_refuted.
(* directorize trims, appends a slash when there is none, is idempotent *)
Theorem C35_directorize : forall p, exists m r, trim p (lit " " ++ ["009"; "010"; "013"]%char) = Ok m /\ directorize p = Ok r /\
  (m = [] -> r = []) /\ (forall d, m = d ++ [slash] -> r = m) /\
  (m <> [] -> (forall d, m <> d ++ [slash]) -> r = m ++ [slash]).
Proof. intros p. destruct (directorize_ok p) as (m & r & A & B & C & D & E & _). exists m, r. auto. Qed.
Print Assumptions C35_directorize.
Theorem C35_directorize_idempotent : forall p r, directorize p = Ok r ->
  directorize r = Ok r /\ (r = [] \/ exists d, r = d ++ [slash]).
Proof. exact directorize_idem. Qed.
Print Assumptions C35_directorize_idempotent.
Theorem C35_is_absolute : forall p, exists r, is_absolute_path p = Ok r /\
  (r = true <-> exists g t, p = g ++ slash :: t /\ forall c, In c g -> c = " "%char \/ c = "009"%char).
Proof. exact absolute_ok. Qed.
Print Assumptions C35_is_absolute.
(* mkdir creates the ancestors in order, each once, and stops at the first failure *)
Theorem C35_mkdir : forall ok path comps, words_of [slash] path comps ->
  let dir k := (if match path with c :: _ => Ascii.eqb c slash | [] => false end then [slash] else [])
               ++ joined (firstn k comps) [slash] in
  exists n r, mkdir ok path = Ok (map dir (seq 1 n), r) /\ n <= length comps /\
    (forall k, 1 <= k < n -> ok (dir k) = true) /\
    (r = true -> n = length comps /\ (1 <= n -> ok (dir n) = true)) /\
    (r = false -> 1 <= n /\ ok (dir n) = false).
Proof. exact mkdir_ok. Qed.
Print Assumptions C35_mkdir.
Example C35_ex : get_basename (lit "/a/b.txt") = Ok (lit "b.txt") /\ get_directory (lit "/a/b.txt") = Ok (lit "/a/") /\
  get_basename (lit "/a/b/") = Ok (lit "b") /\ get_directory (lit "x") = Ok (lit "./") /\
  split_extension (lit "a.tar.gz") = Ok (lit "a.tar", lit ".gz") /\ directorize (lit " /tmp ") = Ok (lit "/tmp/") /\
  mkdir (fun _ => true) (lit "/a//b/c") = Ok ([lit "/a"; lit "/a/b"; lit "/a/b/c"], true) /\
  mkdir (fun d => length d <? 3) (lit "a/b/c") = Ok ([lit "a"; lit "a/b"], false).
Proof. repeat split; reflexivity. Qed.
