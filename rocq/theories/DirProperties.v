(* C80-C81: directories. *)
From Coq Require Import Ascii String.
From Verif Require Import Base StrModel StrSpec ArgvModel DirModel DirSpec DirProofs DirProofs2.
Local Open Scope nat_scope.

(* --- C80: listing ------------------------------------------------------------------ *)
(* list_files() gives the names of the entries that match the pattern, are not hidden and are not
   directories, in the order of the directory; the directory is closed, and nothing else is. *)
Theorem C80_list_files : forall contents fnmatch os dir p es, contents dir = Some es ->
  exists l, list_files contents fnmatch os dir p = Ok (os ++ [None], map ename l) /\
    kept (fun e => selected fnmatch p e /\ ~ hidden (ename e) /\ ~ directory_entry e) es l.
Proof.
  intros contents fnmatch os dir p es C. unfold list_files. rewrite (proj1 (list_with_ok contents fnmatch _ os dir p) es C).
  set (keep := fun f => negb (is_hidden f) && negb (is_dir f)).
  exists (filter (fun e => keep (data dir e)) (filter (sel fnmatch (star p)) es)). split.
  - do 2 f_equal. clear. induction (filter (sel fnmatch (star p)) es) as [|e l IH]; auto. cbn [map filter].
    destruct (keep (data dir e)); cbn [map]; rewrite IH; auto. unfold data. destruct (estat e) as [[d n]|]; reflexivity.
  - assert (S1 : forall e, sel fnmatch (star p) e = true <-> selected fnmatch p e).
    { intros e. unfold star, selected, sel. destruct (list_eq_dec ascii_dec p ["*"%char]) as [->|N]; [split; auto|].
      destruct p; [split; auto|]. split; auto. intros [E|[E|E]]; auto; try discriminate; try contradiction. }
    assert (K : forall e, keep (data dir e) = true <-> ~ hidden (ename e) /\ ~ directory_entry e).
    { intros [n st]. unfold keep, data, hidden, directory_entry. cbn [estat ename].
      assert (Hid : (match n with c :: _ :: _ => Ascii.eqb c "."%char | _ => false end) = true <-> exists c r, n = "."%char :: c :: r).
      { destruct n as [|c [|c' n]]; [split; [discriminate|intros (? & ? & E); discriminate]..|].
        split; [intros E; apply Ascii.eqb_eq in E; subst; eauto|intros (? & ? & E); injection E as -> _ _; reflexivity]. }
      assert (Dir : (match st with Some (d, _) => d | None => false end) = true <-> exists m, st = Some (true, m)).
      { destruct st as [[[|] m]|]; split; eauto; try discriminate; intros (? & E); discriminate. }
      rewrite <- Hid, <- Dir. destruct st as [[[|] m]|]; cbn [is_hidden is_dir]; destruct (match n with c :: _ :: _ => _ | _ => _ end); cbn;
        split; intros H; try discriminate; try tauto; try (split; intros ?; discriminate). }
    clear C. induction es as [|e es IH]; [constructor|]. cbn [filter]. destruct (sel fnmatch (star p) e) eqn:E.
    + cbn [filter]. destruct (keep (data dir e)) eqn:E'.
      * constructor; auto. split; [now apply S1|now apply K].
      * constructor; auto. intros [_ H]. apply K in H. congruence.
    + constructor; auto. intros [H _]. apply S1 in H. congruence.
Qed.
Print Assumptions C80_list_files.
Theorem C80_list_directories : forall contents fnmatch os dir p es, contents dir = Some es ->
  exists l, list_directories contents fnmatch os dir p = Ok (os ++ [None], map ename l) /\
    kept (fun e => selected fnmatch p e /\ ~ hidden (ename e) /\ ename e <> ["."%char] /\ directory_entry e) es l.
Proof.
  intros contents fnmatch os dir p es C. unfold list_directories. rewrite (proj1 (list_with_ok contents fnmatch _ os dir p) es C).
  set (keep := fun f => negb (is_hidden f) && is_dir f && negb (is_name ["."%char] f) && negb (is_name ["."; "."]%char f)).
  exists (filter (fun e => keep (data dir e)) (filter (sel fnmatch (star p)) es)). split.
  - do 2 f_equal. clear. induction (filter (sel fnmatch (star p)) es) as [|e l IH]; auto. cbn [map filter].
    destruct (keep (data dir e)); cbn [map]; rewrite IH; auto. unfold data. destruct (estat e) as [[d n]|]; reflexivity.
  - assert (S1 : forall e, sel fnmatch (star p) e = true <-> selected fnmatch p e).
    { intros e. unfold star, selected, sel. destruct (list_eq_dec ascii_dec p ["*"%char]) as [->|N]; [split; auto|].
      destruct p; [split; auto|]. split; auto. intros [E|[E|E]]; auto; try discriminate; try contradiction. }
    assert (K : forall e, keep (data dir e) = true <-> ~ hidden (ename e) /\ ename e <> ["."%char] /\ directory_entry e).
    { intros [n st]. unfold keep, data, hidden, directory_entry, is_name. cbn [estat ename].
      assert (Hid : (match n with c :: _ :: _ => Ascii.eqb c "."%char | _ => false end) = true <-> exists c r, n = "."%char :: c :: r).
      { destruct n as [|c [|c' n]]; [split; [discriminate|intros (? & ? & E); discriminate]..|].
        split; [intros E; apply Ascii.eqb_eq in E; subst; eauto|intros (? & ? & E); injection E as -> _ _; reflexivity]. }
      assert (Dir : (match st with Some (d, _) => d | None => false end) = true <-> exists m, st = Some (true, m)).
      { destruct st as [[[|] m]|]; split; eauto; try discriminate; intros (? & E); discriminate. }
      rewrite <- Hid, <- Dir.
      assert (Dd : n = ["."; "."]%char -> (match n with c :: _ :: _ => Ascii.eqb c "."%char | _ => false end) = true) by (intros ->; reflexivity).
      destruct st as [[[|] m]|]; cbn [is_hidden is_dir name]; destruct (match n with c :: _ :: _ => _ | _ => _ end); cbn [negb andb];
        destruct (list_eq_dec ascii_dec n ["."%char]) as [E1|E1]; destruct (list_eq_dec ascii_dec n ["."; "."]%char) as [E2|E2]; cbn [negb andb];
        split; intros H; try discriminate; try tauto; try (destruct H as (H1 & H2 & H3); try discriminate; tauto);
        try (specialize (Dd E2); discriminate); repeat split; auto; discriminate. }
    clear C. induction es as [|e es IH]; [constructor|]. cbn [filter]. destruct (sel fnmatch (star p) e) eqn:E.
    + cbn [filter]. destruct (keep (data dir e)) eqn:E'.
      * constructor; auto. split; [now apply S1|now apply K].
      * constructor; auto. intros [_ H]. apply K in H. congruence.
    + constructor; auto. intros [H _]. apply S1 in H. congruence.
Qed.
Print Assumptions C80_list_directories.
(* A directory that cannot be opened gives an empty list, as an empty one does. *)
Theorem C80_no_directory : forall contents fnmatch os dir p, contents dir = None ->
  list_files contents fnmatch os dir p = Ok (os, []) /\ list_directories contents fnmatch os dir p = Ok (os, []).
Proof. intros. split; now apply list_with_ok. Qed.
Print Assumptions C80_no_directory.
Definition some_dir : list entry :=
  [Entry (lit ".") (Some (true, 4096%N)); Entry (lit "..") (Some (true, 4096%N)); Entry (lit "b.fits") (Some (false, 10%N));
   Entry (lit ".hidden") (Some (false, 1%N)); Entry (lit "sub") (Some (true, 4096%N)); Entry (lit "a.fits") None].
Example C80_list_ex :
  list_files (fun _ => Some some_dir) (fun _ _ => true) [] (lit "d") (lit "*") = Ok ([None], [lit "b.fits"; lit "a.fits"]) /\
  list_directories (fun _ => Some some_dir) (fun _ _ => true) [] (lit "d") (lit "*") = Ok ([None], [lit "sub"]).
Proof. split; vm_compute; reflexivity. Qed.

(* An explorer that is not closed explicitly can be used in any way: all the directories it opened, and
   only them, are closed at the end.  Finding (filesystem.hpp:104-111): close() does not reset the handle, so that an
   explicit close() of an open directory is always followed by the use, or the second closing, of a
   closed stream, at the latest in the destructor. *)
Theorem C80_session : forall contents fnmatch os calls,
  (~ closes_open contents calls -> session contents fnmatch os calls = Ok (os ++ repeat None (opened contents calls))) /\
  (closes_open contents calls -> session contents fnmatch os calls = UB).
Proof.
  intros contents fnmatch os calls. destruct (ends_ok contents fnmatch calls os 0 [] []) as [E _].
  cbn [repeat] in E. rewrite app_nil_r in E. cbn [Nat.add] in E.
  destruct (well_used_spec contents fnmatch calls) as [W _].
  change (session contents fnmatch os calls) with (ends contents fnmatch (os, new_explorer) calls). unfold new_explorer.
  destruct (well_used contents false calls) eqn:B; split; intros H; auto.
  - exfalso. assert (true = false) by tauto. discriminate.
  - exfalso. tauto.
Qed.
Print Assumptions C80_session.
Example C80_session_ex :
  session (fun _ => Some some_dir) (fun _ _ => true) [] [COpen (lit "a") []; CNext; COpen (lit "b") []; CNext; CNext] = Ok [None; None].
Proof. vm_compute. reflexivity. Qed.
(* Finding (filesystem.hpp:104-111): the shortest such use: open, read, close. *)
Theorem C80_close_UB : exists contents calls, calls = [COpen (lit "a") (lit ""); CNext; CClose] /\
  session contents (fun _ _ => true) [] calls = UB.
Proof. exists (fun _ => Some some_dir), [COpen (lit "a") (lit ""); CNext; CClose]. split; [reflexivity|vm_compute; reflexivity]. Qed.
Print Assumptions C80_close_UB.

(* --- C81: mkdir ---------------------------------------------------------------------- *)
(* mkdir() makes each directory of the path that is missing, and nothing else, when no file is in the way and
   the system allows it; "." counts for nothing. *)
Theorem C81_mkdir : forall allowed cwd t path cs base, words_of ["/"%char] path cs -> start cwd path base -> ~ In ["."; "."]%char cs ->
  let full := effective cs in
  (forall k, 1 <= k <= length full -> t (base ++ firstn k full) <> Some false /\
     (t (base ++ firstn k full) = None -> allowed (base ++ firstn k full) = true)) ->
  exists t', mkdir allowed cwd t path = Ok (true, t') /\
    (forall k, 1 <= k <= length full -> t' (base ++ firstn k full) = Some true) /\
    (forall q, (forall k, 1 <= k <= length full -> q <> base ++ firstn k full) -> t' q = t q).
Proof.
  intros allowed cwd t path cs base W S D full H. apply words_names in W. subst cs.
  assert (B : base = if from_root path then [] else cwd).
  { destruct S as [[(r & ->) ->]|[N ->]]; [reflexivity|]. destruct path as [|c r]; [reflexivity|]. cbn.
    destruct (Ascii.eqb_spec c "/"%char) as [->|]; [now destruct (N r)|reflexivity]. }
  unfold mkdir. destruct path as [|c r].
  - exists t. split; [reflexivity|]. split; [|auto]. intros k Hk. cbn in Hk. lia.
  - rewrite split_parts. cbn [obind]. subst base.
    apply (loop_ok allowed cwd (c :: r) (parts (c :: r)) [] [] t); auto.
    + split; [reflexivity|]. split; [tauto|]. intros X. now destruct X.
    + intros d I. eapply parts_free. exact I.
    + intros k Hk. cbn in Hk. lia.
Qed.
Print Assumptions C81_mkdir.
Definition some_tree : tree := fun p =>
  if list_eq_dec (list_eq_dec ascii_dec) p [lit "home"] then Some true
  else if list_eq_dec (list_eq_dec ascii_dec) p [lit "home"; lit "f"] then Some false else None.
Example C81_mkdir_ex :
  match mkdir (fun _ => true) [lit "home"] some_tree (lit "./out//a/") with
  | Ok (b, t') => (b, t' [lit "home"; lit "out"], t' [lit "home"; lit "out"; lit "a"], t' [lit "out"])
  | _ => (false, None, None, None)
  end = (true, Some true, Some true, None).
Proof. vm_compute. reflexivity. Qed.
(* It returns false when a file is in the way, or a missing directory is not allowed. *)
Theorem C81_mkdir_fails : forall allowed cwd t path cs base, words_of ["/"%char] path cs -> start cwd path base -> ~ In ["."; "."]%char cs ->
  let full := effective cs in
  (exists k, 1 <= k <= length full /\
     (t (base ++ firstn k full) = Some false /\ k < length full \/ t (base ++ firstn k full) = None /\ allowed (base ++ firstn k full) = false)) ->
  exists t', mkdir allowed cwd t path = Ok (false, t').
Proof.
  intros allowed cwd t path cs base W S D full H. apply words_names in W. subst cs.
  assert (B : base = if from_root path then [] else cwd).
  { destruct S as [[(r & ->) ->]|[N ->]]; [reflexivity|]. destruct path as [|c r]; [reflexivity|]. cbn.
    destruct (Ascii.eqb_spec c "/"%char) as [->|]; [now destruct (N r)|reflexivity]. }
  unfold mkdir. destruct path as [|c r].
  - destruct H as (k & Hk & _). cbn in Hk. lia.
  - rewrite split_parts. cbn [obind]. subst base.
    apply (loop_fails allowed cwd (c :: r) (parts (c :: r)) [] [] t); auto.
    + split; [reflexivity|]. split; [tauto|]. intros X. now destruct X.
    + intros d I. eapply parts_free. exact I.
    + intros k Hk. cbn in Hk. lia.
Qed.
Print Assumptions C81_mkdir_fails.
Example C81_mkdir_fails_ex :
  match mkdir (fun _ => true) [lit "home"] some_tree (lit "f/a") with Ok (b, _) => b | _ => true end = false.
Proof. vm_compute. reflexivity. Qed.
(* Finding (filesystem.hpp:292-295): true is returned when the path is a file, for the error EEXIST is taken as
   success: there is no directory. *)
Theorem C81_file_refuted : exists t path p t', t p = Some false /\
  mkdir (fun _ => true) [lit "home"] t path = Ok (true, t') /\ path = lit "/home/f" /\ p = [lit "home"; lit "f"] /\ t' p = Some false.
Proof. exists some_tree, (lit "/home/f"), [lit "home"; lit "f"], some_tree. repeat split; vm_compute; reflexivity. Qed.
Print Assumptions C81_file_refuted.
