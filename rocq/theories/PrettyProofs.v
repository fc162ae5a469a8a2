(* C126: proofs about the names in a backtrace. *)
From Coq Require Import Ascii String Lia.
From Verif Require Import Base StrModel StrSpec StrProofs PrettyModel PrettySpec.
Open Scope nat_scope.
Open Scope list_scope.

Lemma occurs_char c s : occurs [c] s <-> In c s.
Proof.
  split.
  - intros (i & a & b & -> & _). apply in_or_app. right. left. reflexivity.
  - intros I. apply in_split in I. destruct I as (a & b & ->). exists (length a), a, b. split; reflexivity.
Qed.
Lemma first_char c a b : (forall j, occurs_at [c] (a ++ [c] ++ b) j -> length a <= j) -> ~ In c a.
Proof.
  intros H I. apply in_split in I. destruct I as (x & y & ->). specialize (H (length x)). rewrite app_length in H. cbn [length] in H.
  assert (occurs_at [c] ((x ++ c :: y) ++ [c] ++ b) (length x)) by (exists x, (y ++ [c] ++ b); split; [rewrite <- app_assoc; reflexivity|reflexivity]). specialize (H H0). lia.
Qed.
(* the bracket that is opened before x *)
Lemma scan_spec : forall x d p, 0 < d ->
  (exists e, level d x = Some e /\ scan x p d = p + length x) \/
  (exists y z, x = y ++ [gt] ++ z /\ level d y = Some 1 /\ scan x p d = p + length y + 1).
Proof.
  induction x as [|c x IH]; intros d p D; [left; exists d; split; [reflexivity|destruct d; [lia|]; cbn; lia]|]. destruct d as [|d]; [lia|]. cbn [scan level]. unfold lt, gt.
  destruct (Ascii.eqb_spec c "<") as [->|N1].
  - destruct (IH (S (S d)) (S p) ltac:(lia)) as [(e & E & S1)|(y & z & -> & L & S1)]; [left; exists e; split; [exact E|rewrite S1; cbn; lia]|]. right. exists ("<"%char :: y), z. split; [reflexivity|]. split; [exact L|]. rewrite S1. cbn. lia.
  - destruct (Ascii.eqb_spec c ">") as [->|N2].
    + cbn [Nat.sub]. destruct d as [|d]; [right; exists [], x; split; [reflexivity|]; split; [reflexivity|]; cbn; destruct x; cbn; lia|].
      rewrite ?Nat.sub_0_r. destruct (IH (S d) (S p) ltac:(lia)) as [(e & E & S1)|(y & z & -> & L & S1)]; [left; exists e; split; [exact E|rewrite S1; cbn; lia]|]. right. exists (">"%char :: y), z. split; [reflexivity|]. split; [exact L|]. rewrite S1. cbn. lia.
    + destruct (IH (S d) (S p) ltac:(lia)) as [(e & E & S1)|(y & z & -> & L & S1)]; [left; exists e; split; [exact E|rewrite S1; cbn; lia]|]. right. exists (c :: y), z. split; [reflexivity|]. split; [|rewrite S1; cbn; lia].
      cbn [level]. rewrite (proj2 (Ascii.eqb_neq c "<") N1), (proj2 (Ascii.eqb_neq c ">") N2). exact L.
Qed.
Lemma put_spec : forall l, l <> [] -> forall first, put first l = (if first then [] else match l with [x] => if eqs x (lit "void") then [] else lit "," | _ => lit "," end) ++
  match rev l with x :: t => if eqs x (lit "void") then joined (rev t) (lit ",") else joined l (lit ",") | [] => [] end.
Proof.
  assert (J : forall x (l : list (list ascii)) sep, l <> [] -> joined (x :: l) sep = x ++ sep ++ joined l sep) by (intros x [|y l] sep H; [contradiction|reflexivity]).
  induction l as [|x l IH]; intros H first; [contradiction|]. destruct l as [|y l].
  - cbn [put rev app]. destruct (eqs x (lit "void")) eqn:E, first; cbn; try rewrite E; try reflexivity.
  - change (put first (x :: y :: l)) with ((if first then [] else lit ",") ++ x ++ put false (y :: l)). rewrite (IH ltac:(discriminate) false).
    destruct (rev (y :: l)) as [|z t] eqn:R; [apply (f_equal (@length _)) in R; rewrite rev_length in R; discriminate|]. change (rev (x :: y :: l)) with (rev (y :: l) ++ [x]). rewrite R. cbn [app].
    destruct first; cbn [app]; [|f_equal; f_equal]; destruct (eqs z (lit "void")) eqn:E.
    + rewrite rev_app_distr. cbn [rev app]. destruct l as [|w l].
      * cbn in R. injection R as <- <-. rewrite E. cbn. rewrite app_nil_r. reflexivity.
      * rewrite J; [reflexivity|]. intros X. apply (f_equal (@length _)) in X. rewrite rev_length in X. apply (f_equal (@length _)) in R. rewrite rev_length in R. cbn in R, X. lia.
    + rewrite (J x (y :: l)) by discriminate. destruct l as [|w l]; [cbn in R; injection R as <- <-; rewrite E; reflexivity|reflexivity].
    + rewrite rev_app_distr. cbn [rev app]. destruct l as [|w l].
      * cbn in R. injection R as <- <-. rewrite E. cbn. rewrite app_nil_r. reflexivity.
      * rewrite J; [reflexivity|]. intros X. apply (f_equal (@length _)) in X. rewrite rev_length in X. apply (f_equal (@length _)) in R. rewrite rev_length in R. cbn in R, X. lia.
    + rewrite (J x (y :: l)) by discriminate. destruct l as [|w l]; [cbn in R; injection R as <- <-; rewrite E; reflexivity|reflexivity].
Qed.

Lemma eqs_iff a b : eqs a b = true <-> a = b.
Proof. unfold eqs. destruct (list_eq_dec ascii_dec a b); split; congruence. Qed.
Lemma arguments_ok x : exists w ts, split x (lit ",") = Ok w /\ omapl (fun s => trim s [" "; ascii_of_nat 9]%char) w = Ok ts /\ arguments x (put true ts).
Proof.
  destruct (split_ok x (lit ",") ltac:(discriminate)) as (w & E & C).
  assert (T : forall w, exists ts, omapl (fun s => trim s [" "; ascii_of_nat 9]%char) w = Ok ts /\ Forall2 trimmed w ts).
  { clear. induction w as [|s w (ts & E & F)]; [exists []; split; [reflexivity|constructor]|]. destruct (trim_ok s [" "; ascii_of_nat 9]%char) as (m & Em & H). exists (m :: ts). cbn [omapl]. rewrite Em. cbn [obind]. rewrite E. split; [reflexivity|]. constructor; [exact H|exact F]. }
  destruct (T w) as (ts & Et & F). exists w, ts. split; [exact E|]. split; [exact Et|]. exists w, ts. split; [exact C|]. split; [exact F|].
  assert (Ne : ts <> []) by (intros ->; inversion F; subst; inversion C). rewrite put_spec by exact Ne. cbn [app].
  destruct (rev ts) as [|z t] eqn:R; [apply (f_equal (@length _)) in R; rewrite rev_length in R; destruct ts; [contradiction|discriminate]|].
  assert (Ets : ts = rev t ++ [z]) by (rewrite <- (rev_involutive ts), R; reflexivity). destruct (eqs z (lit "void")) eqn:Ez.
  - left. exists (rev t). split; [|reflexivity]. apply eqs_iff in Ez. subst z. exact Ets.
  - right. split; [|reflexivity]. intros l L. rewrite L in Ets. apply app_inj_tail in Ets. destruct Ets as [_ <-]. assert (eqs void (lit "void") = true) by (apply eqs_iff; reflexivity). congruence.
Qed.
Lemma firstn_len A (l : list A) n : length l <= n -> firstn n l = l.
Proof. intros H. apply firstn_all2. exact H. Qed.
Lemma args_loop_ok : forall fuel pre s name, length s <= fuel ->
  exists r, args_loop fuel (pre ++ s) (sfind [lt] (pre ++ s) (length pre)) (length pre) name = Ok (name ++ r) /\ tidied s r.
Proof.
  induction fuel as [|fuel IH]; intros pre s name L.
  - destruct s; [|cbn in L; lia]. rewrite app_nil_r. exists []. pose proof (sfind_spec [lt] pre []) as F. rewrite app_nil_r in F. destruct (sfind [lt] pre (length pre)) as [k|]; [destruct F as (a & b & E & _); destruct a; discriminate|].
    cbn [args_loop]. unfold substr_end. rewrite Nat.leb_refl, skipn_all. split; [reflexivity|constructor; intros []].
  - pose proof (sfind_spec [lt] pre s) as F. destruct (sfind [lt] (pre ++ s) (length pre)) as [k|].
    2:{ exists s. cbn [args_loop]. rewrite substr_tail. split; [reflexivity|]. constructor. intros I. apply F. apply occurs_char. exact I. }
    destruct F as (a & x & -> & -> & H). pose proof (first_char lt a x H) as Na. clear H. cbn [args_loop].
    replace (length pre + length a - length pre + 1) with (length (a ++ [lt])) by (rewrite app_length; cbn; lia).
    replace (pre ++ a ++ [lt] ++ x) with (pre ++ (a ++ [lt]) ++ x) by (rewrite <- !app_assoc; reflexivity). rewrite substr_mid. cbn [obind].
    set (p1 := pre ++ a ++ [lt]). replace (length pre + length a + 1) with (length p1) by (unfold p1; rewrite !app_length; cbn; lia). replace (pre ++ (a ++ [lt]) ++ x) with (p1 ++ x) by (unfold p1; rewrite <- !app_assoc; reflexivity). rewrite skipn_len_app.
    rewrite !app_length in L. cbn [length] in L.
    destruct (scan_spec x 1 (length p1) ltac:(lia)) as [(e & E & S1)|(y & z & -> & Ly & S1)]; rewrite S1.
    + assert (X : (if length p1 + length x =? length p1 then substr_end (p1 ++ x) (length p1) else substr (p1 ++ x) (length p1) (length p1 + length x - length p1 - 1)) = Ok (removelast x)).
      { destruct (Nat.eqb_spec (length p1 + length x) (length p1)) as [K|K]; [destruct x; [|cbn in K; lia]; apply substr_tail|]. destruct (exists_last (l := x) ltac:(intros ->; cbn in K; lia)) as (x' & c & ->). rewrite removelast_last. rewrite app_length. cbn [length].
        replace (length p1 + (length x' + 1) - length p1 - 1) with (length x') by lia. apply substr_mid. }
      rewrite X. cbn [obind]. destruct (arguments_ok (removelast x)) as (w & ts & Ew & Et & A). rewrite Ew. cbn [obind]. rewrite Et. cbn [obind].
      replace (length p1 + length x) with (length (p1 ++ x)) by apply app_length. destruct (IH (p1 ++ x) [] (name ++ (a ++ [lt]) ++ put true ts ++ [gt]) ltac:(cbn; lia)) as (r & Er & Tr). rewrite app_nil_r in Er. rewrite Er.
      inversion Tr as [s0 Ns|a0 x0 b0 t0 r0 N0 L0 A0 T0 E0|a0 x0 d0 t0 N0 L0 A0 E0]; subst; [|destruct a0; discriminate|destruct a0; discriminate]. rewrite app_nil_r.
      exists ((a ++ [lt]) ++ put true ts ++ [gt]). split; [reflexivity|]. rewrite <- app_assoc. eapply tidied_open; eassumption.
    + replace (length p1 + length y + 1) with (length (p1 ++ y ++ [gt])) by (rewrite !app_length; cbn; lia).
      destruct (Nat.eqb_spec (length (p1 ++ y ++ [gt])) (length p1)) as [K|_]; [rewrite !app_length in K; cbn in K; lia|]. replace (length (p1 ++ y ++ [gt]) - length p1 - 1) with (length y) by (rewrite !app_length; cbn; lia). rewrite substr_mid. cbn [obind].
      destruct (arguments_ok y) as (w & ts & Ew & Et & A). rewrite Ew. cbn [obind]. rewrite Et. cbn [obind].
      replace (p1 ++ y ++ [gt] ++ z) with ((p1 ++ y ++ [gt]) ++ z) by (rewrite <- !app_assoc; reflexivity). rewrite !app_length in L. cbn [length] in L.
      destruct (IH (p1 ++ y ++ [gt]) z (name ++ (a ++ [lt]) ++ put true ts ++ [gt]) ltac:(lia)) as (r & Er & Tr). rewrite Er. exists (a ++ [lt] ++ put true ts ++ [gt] ++ r). split; [f_equal; rewrite <- !app_assoc; reflexivity|]. apply tidied_one; assumption.
Qed.
Lemma args_ok s : exists r, args s = Ok r /\ tidied s r.
Proof. destruct (args_loop_ok (length s) [] s [] ltac:(lia)) as (r & E & T). exists r. split; [exact E|exact T]. Qed.

Lemma digit_same c : is_digit c = digit c.
Proof. destruct c as [[] [] [] [] [] [] [] []]; reflexivity. Qed.
Lemma no_suffix_free : forall s prev, ~ occurs (lit "ul") s -> no_suffix prev s = s.
Proof.
  induction s as [|c s IH]; intros prev H; [reflexivity|]. cbn [no_suffix]. destruct s as [|d s']; [reflexivity|].
  destruct (Ascii.eqb_spec c "u") as [->|N]; [destruct (Ascii.eqb_spec d "l") as [->|N]|]; cbn [andb].
  - exfalso. apply H. exists 0, [], s'. split; reflexivity.
  - rewrite IH; [reflexivity|]. intros (i & O). apply H. exists (S i). apply occurs_cons. exact O.
  - rewrite IH; [reflexivity|]. intros (i & O). apply H. exists (S i). apply occurs_cons. exact O.
Qed.
Definition prev_of (prev : option ascii) (a : str) : option ascii := match rev a with c :: _ => Some c | [] => prev end.
Lemma prev_cons prev c a : prev_of prev (c :: a) = prev_of (Some c) a.
Proof. unfold prev_of. cbn [rev]. destruct (rev a); reflexivity. Qed.
Lemma no_suffix_first : forall a b prev, (forall i, occurs_at (lit "ul") (a ++ lit "ul" ++ b) i -> length a <= i) ->
  no_suffix prev (a ++ lit "ul" ++ b) = a ++ (if match prev_of prev a with Some c => digit c | None => false end then [] else lit "ul") ++ no_suffix (Some "l"%char) b.
Proof.
  induction a as [|c a IH]; intros b prev H.
  - cbn [app lit list_ascii_of_string no_suffix]. change (Ascii.eqb "u" "u" && Ascii.eqb "l" "l")%bool with true. cbn [prev_of rev]. destruct prev as [c|]; [destruct (digit c)|]; reflexivity.
  - rewrite prev_cons. assert (IH' := IH b (Some c)). rewrite <- app_comm_cons.
    assert (G : forall t, t = a ++ lit "ul" ++ b -> t <> [] -> no_suffix prev (c :: t) = c :: no_suffix (Some c) t).
    { intros t Et Nt. cbn [no_suffix]. destruct t as [|d t']; [contradiction|]. destruct (Ascii.eqb_spec c "u") as [->|N]; [destruct (Ascii.eqb_spec d "l") as [->|N]|]; cbn [andb]; try reflexivity.
      exfalso. specialize (H 0). cbn [length] in H. assert (O : occurs_at (lit "ul") (("u"%char :: a) ++ lit "ul" ++ b) 0) by (exists [], t'; split; [rewrite <- app_comm_cons, <- Et; reflexivity|reflexivity]). specialize (H O). lia. }
    rewrite (G _ eq_refl) by (destruct a; discriminate). rewrite IH'; [reflexivity|]. intros i O. specialize (H (S i) (occurs_cons _ _ _ _ O)). cbn in H. lia.
Qed.
Lemma prev_app a b prev : b <> [] -> prev_of prev (a ++ b) = prev_of None b.
Proof. intros H. unfold prev_of. rewrite rev_app_distr. destruct (rev b) eqn:E; [apply (f_equal (@length _)) in E; rewrite rev_length in E; destruct b; [contradiction|discriminate]|reflexivity]. Qed.
Lemma ul_loop_ok : forall fuel pre mid s name, length s <= fuel ->
  ul_loop fuel (pre ++ mid ++ s) (sfind (lit "ul") (pre ++ mid ++ s) (length (pre ++ mid))) (length pre) name = Ok (name ++ mid ++ no_suffix (prev_of None (pre ++ mid)) s).
Proof.
  assert (End : forall pre mid s name, ~ occurs (lit "ul") s -> (r <- substr_end (pre ++ mid ++ s) (length pre) ;; Ok (name ++ r)) = Ok (name ++ mid ++ no_suffix (prev_of None (pre ++ mid)) s)).
  { intros. rewrite substr_tail. cbn [obind]. rewrite no_suffix_free by assumption. reflexivity. }
  induction fuel as [|fuel IH]; intros pre mid s name L; pose proof (sfind_spec (lit "ul") (pre ++ mid) s) as F; rewrite <- app_assoc in F; destruct (sfind (lit "ul") (pre ++ mid ++ s) (length (pre ++ mid))) as [k|]; try (cbn [ul_loop]; apply End; exact F).
  - destruct F as (a & b & -> & _). rewrite !app_length in L. cbn in L. lia.
  - destruct F as (a & b & -> & -> & H). cbn [ul_loop]. rewrite no_suffix_first by exact H. clear H.
    replace (length (pre ++ mid) + length a) with (length (pre ++ mid ++ a)) by (rewrite !app_length; lia).
    assert (Pv : prev_of (prev_of None (pre ++ mid)) a = prev_of None (pre ++ mid ++ a)).
    { destruct a as [|c a]; [rewrite app_nil_r; reflexivity|]. rewrite (app_assoc pre), (prev_app (pre ++ mid)) by discriminate. rewrite <- (prev_app [] (c :: a) (prev_of None (pre ++ mid))) by discriminate. reflexivity. }
    rewrite Pv.
    assert (Dg : (if length (pre ++ mid ++ a) =? 0 then Ok false else c <- oget (pre ++ mid ++ a ++ lit "ul" ++ b) (length (pre ++ mid ++ a) - 1) ;; Ok (is_digit c)) = Ok (match prev_of None (pre ++ mid ++ a) with Some c => digit c | None => false end)).
    { replace (pre ++ mid ++ a ++ lit "ul" ++ b) with ((pre ++ mid ++ a) ++ lit "ul" ++ b) by (rewrite <- !app_assoc; reflexivity). generalize (pre ++ mid ++ a). intros q. destruct q as [|c0 q0] eqn:Eq; [reflexivity|]. destruct (exists_last (l := q) ltac:(rewrite Eq; discriminate)) as (q' & c & E). rewrite <- Eq, E. rewrite app_length. cbn [length].
      destruct (Nat.eqb_spec (length q' + 1) 0); [lia|]. replace (length q' + 1 - 1) with (length q') by lia. unfold oget. rewrite <- app_assoc, nth_error_app2, Nat.sub_diag by lia. cbn [app nth_error obind]. unfold prev_of. rewrite rev_unit, digit_same. reflexivity. }
    rewrite Dg. cbn [obind]. rewrite !app_length in L. cbn [length lit list_ascii_of_string] in L.
    replace (length (pre ++ mid ++ a) + 2) with (length (pre ++ mid ++ a ++ lit "ul")) by (rewrite !app_length; reflexivity || (cbn; lia)).
    assert (Pl : forall q, prev_of None (q ++ lit "ul") = Some "l"%char) by (intros q; unfold prev_of; rewrite rev_app_distr; reflexivity).
    destruct (match prev_of None (pre ++ mid ++ a) with Some c => digit c | None => false end).
    + replace (length (pre ++ mid ++ a) - length pre) with (length (mid ++ a)) by (rewrite !app_length; lia). replace (pre ++ mid ++ a ++ lit "ul" ++ b) with (pre ++ (mid ++ a) ++ lit "ul" ++ b) by (rewrite <- !app_assoc; reflexivity). rewrite substr_mid. cbn [obind].
      specialize (IH (pre ++ mid ++ a ++ lit "ul") [] b (name ++ mid ++ a) ltac:(lia)). cbn [app] in IH. rewrite app_nil_r in IH. replace (pre ++ (mid ++ a) ++ lit "ul" ++ b) with ((pre ++ mid ++ a ++ lit "ul") ++ b) by (rewrite <- !app_assoc; reflexivity). rewrite IH.
      replace (pre ++ mid ++ a ++ lit "ul") with ((pre ++ mid ++ a) ++ lit "ul") by (rewrite <- !app_assoc; reflexivity). rewrite Pl. f_equal. rewrite <- !app_assoc. reflexivity.
    + specialize (IH pre (mid ++ a ++ lit "ul") b name ltac:(lia)). replace (pre ++ mid ++ a ++ lit "ul" ++ b) with (pre ++ (mid ++ a ++ lit "ul") ++ b) by (rewrite <- !app_assoc; reflexivity). rewrite IH.
      replace (pre ++ mid ++ a ++ lit "ul") with ((pre ++ mid ++ a) ++ lit "ul") by (rewrite <- !app_assoc; reflexivity). rewrite Pl. f_equal. rewrite <- !app_assoc. reflexivity.
Qed.
Lemma constants_ok s : constants s = Ok (no_suffix None s).
Proof. exact (ul_loop_ok (length s) [] [] s [] (le_n _)). Qed.
