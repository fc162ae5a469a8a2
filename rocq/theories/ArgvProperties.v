(* C75-C76: command line arguments. *)
From Coq Require Import Ascii String.
From Verif Require Import Base StrModel StrSpec ArgvModel ArgvSpec ArgvProofs ArgvProofs2 ArgvProofs3 ArgvProofs4 ArgvProofs5.
Local Open Scope nat_scope.

(* numbers with one digit, for the examples; a failed conversion leaves zero *)
Definition digit (s : list ascii) : option nat :=
  match s with
  | [c] => let n := nat_of_ascii c in if (48 <=? n) && (n <=? 57) then Some (n - 48) else None
  | _ => None
  end.
Definition show_digit (n : nat) : list ascii := [ascii_of_nat (48 + n)].
Definition zero_left (s : list ascii) (x : nat) : nat := 0.

(* Each variable takes the value of the last argument with its name, or keeps its value when there is
   none; the arguments used are marked as read, and the default values are added to the list. *)
Theorem C75_read_args :
  forall (V : Type) (parse : list ascii -> option V) left one show ws its ns args,
  name_it_all ws its ns -> NoDup ns -> (forall n, In n ns -> good_name n) -> all_valid args ->
  (forall nit, In nit (combine ns its) -> convertible parse one (fst nit) (snd (snd nit)) args) ->
  exists ts, all_end parse one args its ns ts /\
    read_args parse left one show args (joined ws [","%char]) its =
      Ok (map (mark ns) args ++ concat (map (default show args) (combine ns (map snd its))), ts, []).
Proof. intros. now apply read_args_good. Qed.
Print Assumptions C75_read_args.
Example C75_read_args_ex :
  read_args digit zero_left 1 show_digit
    (make_args_vec [lit "n=3"; lit "-flag"; lit "names = [ 'ab' , cd]"; lit "n= '7'"; lit "other=1"])
    (lit "n, opts.flag,names, name(x[2], ""size""), v")
    [(None, Scalar 0); (None, Scalar 0); (None, Texts []); (Some (lit "size"), Scalar 5); (None, Vector [1; 2])] =
  Ok ([Arg (lit "n=3") true true; Arg (lit "-flag") true true; Arg (lit "names = [ 'ab' , cd]") true true;
       Arg (lit "n= '7'") true true; Arg (lit "other=1") false true;
       Arg (lit "size=5") true true; Arg (lit "v=[1,2]") true true],
      [Scalar 7; Scalar 1; Texts [lit "ab"; lit "cd"]; Scalar 5; Vector [1; 2]], []).
Proof. vm_compute. reflexivity. Qed.

(* The arguments reported as unrecognized are exactly those that no variable has read. *)
Theorem C75_unrecognized :
  forall (V : Type) (parse : list ascii -> option V) left one show ws its ns argv,
  name_it_all ws its ns -> NoDup ns -> (forall n, In n ns -> good_name n) ->
  (forall nit, In nit (combine ns its) -> convertible parse one (fst nit) (snd (snd nit)) (make_args_vec argv)) ->
  exists args ts, read_args parse left one show (make_args_vec argv) (joined ws [","%char]) its = Ok (args, ts, []) /\
    unrecognized args = filter (fun a => negb (existsb (fun n => is_for n a) ns)) argv.
Proof.
  intros V parse left one show ws its ns argv H Nd G Co.
  destruct (read_args_good parse left one show ws its ns (make_args_vec argv)) as (ts & _ & E); auto.
  { intros a I. apply in_map_iff in I. destruct I as (x & <- & _). reflexivity. }
  eexists _, ts. split; [exact E|]. unfold unrecognized. rewrite filter_app, map_app.
  replace (filter (fun a => negb (read a)) (concat (map (default show (make_args_vec argv)) (combine ns (map snd its))))) with (@nil arg).
  2:{ symmetry. generalize (combine ns (map snd its)) as l. intros l. induction l as [|nt l IH]; auto. cbn [map concat].
      rewrite filter_app, IH. unfold default. destruct (used (fst nt) (make_args_vec argv)); reflexivity. }
  rewrite app_nil_r. clear. unfold make_args_vec. induction argv as [|a argv IH]; auto. cbn [map filter mark read text orb].
  destruct (existsb (fun n => is_for n a) ns); cbn [negb map text]; [exact IH|]. now f_equal.
Qed.
Print Assumptions C75_unrecognized.
Example C75_unrecognized_ex :
  match read_args digit zero_left 1 show_digit (make_args_vec [lit "verbos"; lit "n=2"; lit "--n=4"]) (lit "n, verbose")
      [(None, Scalar 0); (None, Scalar 0)] with
  | Ok (args, ts, ws) => (unrecognized args, ts)
  | _ => ([], [])
  end = ([lit "verbos"; lit "--n=4"], [Scalar 2; Scalar 0]).
Proof. vm_compute. reflexivity. Qed.

(* An argument that cannot be converted stops the reading of its variable, with a warning: the
   arguments after it are left alone, a vector and a string keep the value they had. *)
Theorem C75_invalid :
  forall (V : Type) (parse : list ascii -> option V) left one show n pre a post t,
  all_valid pre -> convertible parse one n t pre ->
  is_for n (text a) = true -> assigned parse one t (text a) = None ->
  exists t', ends_as parse one t (uses n (map text pre)) t' /\
    read_var parse left one show n (pre ++ a :: post) t =
      Ok (map (mark [n]) pre ++ [Arg (text a) true false] ++ post ++
            (if used n pre || counted t (text a) then [] else [Arg (assignment show n t) true true]),
          spoiled left t' (text a), true).
Proof. intros. now apply read_var_bad. Qed.
Print Assumptions C75_invalid.
Example C75_invalid_ex :
  read_var digit zero_left 1 show_digit (lit "v") (make_args_vec [lit "v=4"; lit "v=[1,x]"; lit "v=6"]) (Vector [1]) =
  Ok ([Arg (lit "v=4") true true; Arg (lit "v=[1,x]") true false; Arg (lit "v=6") false true], Vector [4], true).
Proof. vm_compute. reflexivity. Qed.

(* Finding (argv.hpp:14-30): the documentation says that when the conversion fails "the variable is not
   modified"; a number is set to zero by the failed stream extraction. *)
Theorem C75_not_modified_refuted : exists args x,
  read_var digit zero_left 1 show_digit (lit "n") args (Scalar x) = Ok ([Arg (lit "n=many") true false], Scalar 0, true) /\ x <> 0.
Proof. exists (make_args_vec [lit "n=many"]), 5. split; [vm_compute; reflexivity|discriminate]. Qed.
Print Assumptions C75_not_modified_refuted.

(* Finding (argv.hpp:172-182): an argument that could not be converted for one variable blocks the
   other variables whose name is contained in it: their own arguments after it are not read. *)
Theorem C75_blocked_refuted : exists argv args, In (lit "x=5") argv /\
  read_args digit zero_left 1 show_digit (make_args_vec argv) (lit "xmax, x") [(None, Scalar 9); (None, Scalar 0)] =
    Ok (args, [Scalar 0; Scalar 0], [lit "xmax"; lit "x"]) /\ unrecognized args = [lit "x=5"].
Proof.
  exists [lit "xmax=auto"; lit "x=5"]. eexists. split; [right; now left|]. split; vm_compute; reflexivity.
Qed.
Print Assumptions C75_blocked_refuted.

(* Without enough names the reading throws. *)
Theorem C75_too_few_names_throws :
  forall (V : Type) (parse : list ascii -> option V) left one show ws its args,
  ws <> [] -> (forall w, In w ws -> ~ In ","%char w) -> (forall it : item V, In it its -> fst it = None) ->
  length ws < length its -> read_args parse left one show args (joined ws [","%char]) its = Throws.
Proof. intros. now apply too_few. Qed.
Print Assumptions C75_too_few_names_throws.
Example C75_too_few_names_ex :
  read_args digit zero_left 1 show_digit [] (lit "a,b") [(None, Scalar 0); (None, Scalar 0); (None, Scalar 0)] = Throws.
Proof. reflexivity. Qed.

(* Finding (argv.hpp:204, 225-227): the text of a name() ends at its first ')', and exactly one more
   character is skipped: with a call inside, or a space before the comma, the next variables get
   another name, and their arguments are not recognized. *)
Theorem C75_name_text_refuted :
  (exists args, read_args digit zero_left 1 show_digit (make_args_vec [lit "b=5"]) (lit "name(v[f(0)], ""a""), b")
     [(Some (lit "a"), Scalar 1); (None, Scalar 2)] = Ok (args, [Scalar 1; Scalar 2], []) /\ unrecognized args = [lit "b=5"]) /\
  (exists args, read_args digit zero_left 1 show_digit (make_args_vec [lit "b=5"]) (lit "name(v, ""a"") , b")
     [(Some (lit "a"), Scalar 1); (None, Scalar 2)] = Ok (args, [Scalar 1; Scalar 2], []) /\ unrecognized args = [lit "b=5"]).
Proof. split; eexists; split; vm_compute; reflexivity. Qed.
Print Assumptions C75_name_text_refuted.

(* --- C76 ------------------------------------------------------------------------------- *)
(* Writing adds "name=value" for each variable, in order. *)
Theorem C76_write_args :
  forall (V : Type) (parse : list ascii -> option V) left one show ws its ns args,
  name_it_all ws its ns -> (forall it, In it its -> fst it = None) ->
  write_args parse left one show args (joined ws [","%char]) its =
    Ok (args ++ map (fun nt => Arg (assignment show (fst nt) (snd nt)) true true) (combine ns (map snd its)), map snd its, []).
Proof. intros. now apply write_args_good. Qed.
Print Assumptions C76_write_args.
Example C76_write_args_ex :
  write_args digit zero_left 1 show_digit [] (lit "n, o.v,s") [(None, Scalar 4); (None, Vector [1; 2; 3]); (None, Text (lit "a b"))] =
  Ok ([Arg (lit "n=4") true true; Arg (lit "v=[1,2,3]") true true; Arg (lit "s=a b") true true],
      [Scalar 4; Vector [1; 2; 3]; Text (lit "a b")], []).
Proof. vm_compute. reflexivity. Qed.
(* Without enough names the writing throws. *)
Theorem C76_too_few_names_throws :
  forall (V : Type) (parse : list ascii -> option V) left one show ws its args,
  ws <> [] -> (forall w, In w ws -> ~ In ","%char w) -> (forall it : item V, In it its -> fst it = None) ->
  length ws < length its -> write_args parse left one show args (joined ws [","%char]) its = Throws.
Proof. intros. now apply write_too_few. Qed.
Print Assumptions C76_too_few_names_throws.
Example C76_too_few_names_ex :
  write_args digit zero_left 1 show_digit [] (lit "a,b") [(None, Scalar 0); (None, Scalar 0); (None, Scalar 0)] = Throws.
Proof. reflexivity. Qed.

(* What was written is read back, from a list of arguments or from the command line. *)
Theorem C76_round_trip :
  forall (V : Type) (parse : list ascii -> option V) left one show ws its us ns,
  name_it_all ws its ns -> (forall it, In it its -> fst it = None) -> name_it_all ws us ns ->
  NoDup ns -> (forall n, In n ns -> good_name n) ->
  Forall2 same_type (map snd its) (map snd us) -> (forall it, In it its -> writable parse show (snd it)) ->
  exists args, write_args parse left one show [] (joined ws [","%char]) its = Ok (args, map snd its, []) /\
    make_args (map text args) = Ok (make_args_vec (map text args)) /\
    read_args parse left one show (make_args_vec (map text args)) (joined ws [","%char]) us = Ok (args, map snd its, []) /\
    unrecognized args = [].
Proof.
  intros V parse left one show ws its us ns H0 U H Nd G K W. eexists.
  assert (W' : forall t, In t (map snd its) -> writable parse show t).
  { intros t I. apply in_map_iff in I. destruct I as (it & <- & I). auto. }
  split; [apply (write_args_good parse left one show ws its ns []); auto|]. cbn [app]. split; [|split].
  - apply make_args_trimmed. intros s I. rewrite map_map in I. apply in_map_iff in I. destruct I as ([n t] & <- & I).
    cbn [written text fst snd]. apply (trimmed parse left one show); [apply G; now apply in_combine_l in I|].
    apply W'. now apply in_combine_r in I.
  - now apply round_trip.
  - generalize (combine ns (map snd its)) as l. intros l. unfold unrecognized. induction l as [|nt l IH]; auto.
Qed.
Print Assumptions C76_round_trip.
Example C76_round_trip_ex :
  read_args digit zero_left 1 show_digit (make_args_vec [lit "n=4"; lit "v=[1,2,3]"; lit "s=a b"; lit "t=[]"]) (lit "n,v,s,t")
    [(None, Scalar 0); (None, Vector []); (None, Text []); (None, Texts [lit "x"])] =
  Ok ([Arg (lit "n=4") true true; Arg (lit "v=[1,2,3]") true true; Arg (lit "s=a b") true true; Arg (lit "t=[]") true true],
      [Scalar 4; Vector [1; 2; 3]; Text (lit "a b"); Texts []], []).
Proof. vm_compute. reflexivity. Qed.

(* Finding (argv.hpp:77, 113-118): strings are not written so that they can be read back: blanks and
   quotes around a string are lost, a comma in a list makes two values, and the list of one empty
   string is read as an empty list. *)
Theorem C76_text_round_trip_refuted :
  let back t u := match write_args digit zero_left 1 show_digit [] (lit "s") [(None, t)] with
                  | Ok (args, _, _) => read_args digit zero_left 1 show_digit (make_args_vec (map text args)) (lit "s") [(None, u)]
                  | _ => UB end in
  (exists args, back (Text (lit "'a' ")) (Text []) = Ok (args, [Text (lit "a")], [])) /\
  (exists args, back (Texts [lit "a,b"]) (Texts []) = Ok (args, [Texts [lit "a"; lit "b"]], [])) /\
  (exists args, back (Texts [[]]) (Texts []) = Ok (args, [Texts []], [])).
Proof. cbv zeta. repeat split; eexists; vm_compute; reflexivity. Qed.
Print Assumptions C76_text_round_trip_refuted.

(* Finding (argv.hpp:258-272): after a variable given with name(), write() calls the function that
   reads: the next variables are not written, and are changed by the arguments already listed. *)
Theorem C76_write_named_refuted : exists args,
  write_args digit zero_left 1 show_digit (make_args_vec [lit "b=5"]) (lit "name(v, ""a""),b")
    [(Some (lit "a"), Scalar 1); (None, Scalar 2)] = Ok (args, [Scalar 1; Scalar 5], []) /\
  map text args = [lit "b=5"; lit "a=1"].
Proof. eexists. split; vm_compute; reflexivity. Qed.
Print Assumptions C76_write_named_refuted.

(* serialize() gives the arguments as words separated by blanks, when they contain none. *)
Theorem C76_serialize : forall args, (forall a, In a args -> text a <> [] /\ free_of blank_chars (text a)) ->
  words_of blank_chars (serialize args) (map text args) /\
  split_any_of (serialize args) blank_chars = Ok (map text args).
Proof.
  intros args H. assert (W : words_of blank_chars (serialize args) (map text args)).
  { apply serialize_words. intros s I. apply in_map_iff in I. destruct I as (a & <- & I). auto. }
  split; auto. destruct (StrProofs2.split_any_ok blank_chars (serialize args)) as (ws & E & W').
  rewrite E. f_equal. eapply StrProofs2.words_fun; eauto.
Qed.
Print Assumptions C76_serialize.
Example C76_serialize_ex : serialize (make_args_vec [lit "n=4"; lit "flag"; lit "v=[1,2]"]) = lit "n=4 flag v=[1,2]".
Proof. reflexivity. Qed.
(* Finding (argv.hpp:318-320): arguments with blanks are not quoted. *)
Theorem C76_serialize_blank_refuted : exists l l', l <> l' /\ serialize (make_args_vec l) = serialize (make_args_vec l').
Proof. exists [lit "s=a b"], [lit "s=a"; lit "b"]. split; [discriminate|reflexivity]. Qed.
Print Assumptions C76_serialize_blank_refuted.

(* make_cmd() gives a command line from which a shell finds the same words, when the arguments are not
   empty, have no blank before their '=', and no character with a meaning for the shell. *)
Theorem C76_make_cmd : forall prog argv,
  (forall a, In a (prog :: argv) -> a <> [] /\ (forall c, In c a -> ~ In c shell_special /\ c <> """"%char)) ->
  existsb is_gap prog = false ->
  (forall a v, In a argv -> after "="%char a = Some v -> existsb is_gap (before "="%char a) = false) ->
  exists cmd, make_cmd prog argv = Ok cmd /\ shell_words cmd false None = Some (prog :: argv).
Proof.
  intros prog argv H G H2. destruct (H prog) as [N P]; [now left|]. apply make_cmd_words; auto.
  intros a I. destruct (H a) as [Na Pa]; [now right|]. split; auto. split; auto.
  destruct (after "="%char a) eqn:A; auto. eapply H2; eauto.
Qed.
Print Assumptions C76_make_cmd.
Example C76_make_cmd_ex :
  make_cmd (lit "prog") [lit "n=4"; lit "title=a b=c"; lit "two words"] = Ok (lit "prog n=4 title=""a b=c"" ""two words""") /\
  shell_words (lit "prog n=4 title=""a b=c"" ""two words""") false None = Some [lit "prog"; lit "n=4"; lit "title=a b=c"; lit "two words"].
Proof. split; vm_compute; reflexivity. Qed.
(* Finding (argv.hpp:342-358): without these conditions the words are others: an empty argument is
   lost, an argument with a blank before '=' is cut, and quotes inside an argument are not escaped. *)
Theorem C76_make_cmd_refuted :
  let words argv := omap (fun cmd => shell_words cmd false None) (make_cmd (lit "p") argv) in
  words [lit "a"; []] = Ok (Some [lit "p"; lit "a"]) /\
  words [lit "a b=c"] = Ok (Some [lit "p"; lit "a"; lit "b=c"]) /\
  words [lit "say ""hi"" b"] = Ok (Some [lit "p"; lit "say hi b"]).
Proof. cbv zeta. repeat split; vm_compute; reflexivity. Qed.
Print Assumptions C76_make_cmd_refuted.
