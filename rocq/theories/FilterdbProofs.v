(* C106: proofs about filter databases. *)
From Coq Require Import Ascii QArith Qfield Lqa Lia Sorted.
From Verif Require Import Base StrModel StrSpec StrProofs StrProofs3 PathModel FilterdbModel FilterdbSpec.
From Verif Require AsciiModel AsciiProofs4.
Local Open Scope nat_scope.
Local Open Scope list_scope.
Notation length := List.length.

Lemma cmp_eq : forall a b, str_cmp a b = Eq <-> a = b.
Proof.
  induction a as [|x a IH]; intros [|y b]; cbn [str_cmp]; try (split; [discriminate|congruence]); [split; reflexivity|].
  destruct (N.compare_spec (N_of_ascii x) (N_of_ascii y)) as [E|E|E].
  - rewrite IH. assert (x = y) by (rewrite <- (ascii_N_embedding x), E; apply ascii_N_embedding). subst. split; congruence.
  - split; [discriminate|]. intros H. injection H as -> _. lia.
  - split; [discriminate|]. intros H. injection H as -> _. lia.
Qed.
Lemma cmp_trans : forall a b c, str_cmp a b = Lt -> str_cmp b c = Lt -> str_cmp a c = Lt.
Proof.
  induction a as [|x a IH]; intros [|y b] [|z c] H K; cbn [str_cmp] in *; try discriminate; try reflexivity.
  destruct (N.compare_spec (N_of_ascii x) (N_of_ascii y)) as [E|E|E], (N.compare_spec (N_of_ascii y) (N_of_ascii z)) as [F|F|F]; try discriminate;
    destruct (N.compare_spec (N_of_ascii x) (N_of_ascii z)) as [G|G|G]; try reflexivity; try lia. eapply IH; eassumption.
Qed.
Lemma cmp_anti : forall a b, str_cmp b a = CompOpp (str_cmp a b).
Proof.
  induction a as [|x a IH]; intros [|y b]; cbn [str_cmp]; try reflexivity. rewrite N.compare_antisym. destruct (N.compare (N_of_ascii x) (N_of_ascii y)); cbn [CompOpp]; [apply IH|reflexivity|reflexivity].
Qed.

Definition ordered {V} (m : list (list ascii * V)) : Prop := StronglySorted (fun a b => str_cmp (fst a) (fst b) = Lt) m.
Lemma insert_in {V} k (v : V) : forall m p, In p (insert k v m) -> p = (k, v) \/ In p m.
Proof.
  induction m as [|[k1 v1] m IH]; intros p H; cbn [insert] in H; [destruct H as [<-|[]]; auto|]. destruct (str_cmp k k1); [right; exact H| |].
  - destruct H as [<-|H]; auto.
  - destruct H as [<-|H]; [right; left; reflexivity|]. destruct (IH _ H); [auto|right; right; assumption].
Qed.
Lemma insert_ordered {V} k (v : V) m : ordered m -> ordered (insert k v m).
Proof.
  unfold ordered. induction m as [|[k1 v1] m IH]; intros O; cbn [insert]; [repeat constructor|]. inversion O as [|? ? O1 F]; subst. destruct (str_cmp k k1) eqn:E; [exact O| |].
  - constructor; [exact O|]. constructor; [exact E|]. eapply Forall_impl; [|exact F]. cbn. intros [k2 v2] H. cbn in H. eapply cmp_trans; eassumption.
  - constructor; [apply IH; exact O1|]. rewrite Forall_forall in *. intros p I. apply insert_in in I. destruct I as [->|I]; [|apply F; exact I]. cbn [fst]. rewrite cmp_anti, E. reflexivity.
Qed.
Lemma find_none {V} k (m : list (list ascii * V)) : Forall (fun b => str_cmp k (fst b) = Lt) m -> find k m = None.
Proof. induction 1 as [|[k1 v1] m H F IH]; [reflexivity|]. cbn [find]. cbn [fst] in H. rewrite H. exact IH. Qed.
Lemma find_insert {V} k (v : V) k' : forall m, ordered m ->
  find k' (insert k v m) = if list_eq_dec ascii_dec k' k then match find k m with Some x => Some x | None => Some v end else find k' m.
Proof.
  induction m as [|[k1 v1] m IH]; intros O; cbn [insert find].
  - destruct (list_eq_dec ascii_dec k' k) as [->|N]; [rewrite (proj2 (cmp_eq k k) eq_refl); reflexivity|]. destruct (str_cmp k' k) eqn:E; [apply cmp_eq in E; congruence|reflexivity|reflexivity].
  - inversion O as [|? ? O1 F]; subst. destruct (str_cmp k k1) eqn:E.
    + apply cmp_eq in E. subst k1. cbn [find]. destruct (list_eq_dec ascii_dec k' k) as [->|N]; [rewrite (proj2 (cmp_eq k k) eq_refl); reflexivity|reflexivity].
    + cbn [find]. destruct (list_eq_dec ascii_dec k' k) as [->|N].
      * rewrite (proj2 (cmp_eq k k) eq_refl). rewrite find_none; [reflexivity|]. eapply Forall_impl; [|exact F]. cbn. intros [k2 v2] H. cbn in *. eapply cmp_trans; eassumption.
      * destruct (str_cmp k' k) eqn:G; [apply cmp_eq in G; congruence|reflexivity|reflexivity].
    + cbn [find]. rewrite IH by exact O1. destruct (list_eq_dec ascii_dec k' k) as [->|N]; [rewrite E; reflexivity|reflexivity].
Qed.

(* one line *)
Lemma made_unique chars a m b a' m' b' : a ++ m ++ b = a' ++ m' ++ b' -> made_of chars a -> made_of chars b -> made_of chars a' -> made_of chars b' ->
  core chars m -> core chars m' -> m = m'.
Proof.
  assert (Half : forall a m b a' m' b', a ++ m ++ b = a' ++ m' ++ b' -> made_of chars a -> made_of chars b -> made_of chars a' -> made_of chars b' -> (exists c t, m = c :: t /\ ~ In c chars) -> length a' <= length a).
  { clear. intros a m b a' m' b' E A B A' B' (c & t & -> & N). destruct (le_lt_dec (length a') (length a)) as [L|L]; [exact L|]. exfalso. apply N.
    assert (K : nth_error (a ++ (c :: t) ++ b) (length a) = Some c) by (rewrite nth_error_app2, Nat.sub_diag by lia; reflexivity). rewrite E, nth_error_app1 in K by exact L. apply A'. eapply nth_error_In; exact K. }
  intros E A B A' B' C C'. 
  assert (Emp : forall a m b b' a', a ++ m ++ b = a' ++ b' -> made_of chars a' -> made_of chars b' -> core chars m -> m = []).
  { clear. intros a m b b' a' E A' B' [->|((c & t & -> & N) & _)]; [reflexivity|]. exfalso. apply N. assert (I : In c (a' ++ b')) by (rewrite <- E; apply in_or_app; right; left; reflexivity). apply in_app_or in I. destruct I; auto. }
  destruct C as [->|[C1 C2]]; [symmetry; eapply (Emp a' m' b' b a); [symmetry; exact E|assumption..]|].
  destruct C' as [->|[C1' C2']]; [eapply (Emp a m b b' a'); [exact E|assumption|assumption|right; auto]|].
  assert (L : length a = length a').
  { apply Nat.le_antisymm; [eapply Half; [symmetry; exact E|assumption..]|eapply Half; [exact E|assumption..]]. }
  assert (Ea : a = a') by (apply (f_equal (firstn (length a))) in E; rewrite firstn_app, Nat.sub_diag, firstn_all, app_nil_r in E; rewrite L, firstn_app, Nat.sub_diag, firstn_all, app_nil_r in E; exact E). subst a'. apply app_inv_head in E.
  assert (R : rev b ++ rev m ++ [] = rev b' ++ rev m' ++ []) by (rewrite !app_nil_r, <- !rev_app_distr, E; reflexivity).
  assert (Rv : forall l, made_of chars l -> made_of chars (rev l)) by (intros l H c I; apply H; apply in_rev; exact I).
  assert (Nil : made_of chars []) by (intros c []).
  assert (L2 : length (rev b) = length (rev b')).
  { destruct C2 as (t & c & -> & N). destruct C2' as (t' & c' & -> & N'). apply Nat.le_antisymm; [eapply Half; [symmetry; exact R|auto|auto|auto|auto|rewrite rev_app_distr; cbn; eauto]|eapply Half; [exact R|auto|auto|auto|auto|rewrite rev_app_distr; cbn; eauto]]. }
  rewrite !rev_length in L2. apply (f_equal (@length _)) in E as LE. rewrite !app_length in LE. assert (length m = length m') by lia. apply (f_equal (firstn (length m))) in E. rewrite firstn_app, Nat.sub_diag, firstn_all, app_nil_r in E. rewrite H, firstn_app, Nat.sub_diag, firstn_all, app_nil_r in E. exact E.
Qed.
Lemma not_occurs c s : ~ occurs [c] s <-> ~ In c s.
Proof.
  split; intros H I; apply H.
  - apply in_split in I. destruct I as (a & b & ->). exists (length a), a, b. auto.
  - destruct I as (i & a & b & -> & _). apply in_or_app. right. left. reflexivity.
Qed.
Lemma cut_two c s k v : cut_at [c] s [k; v] <-> s = k ++ c :: v /\ ~ In c k /\ ~ In c v.
Proof.
  split.
  - intros C. inversion C as [|? ? ? F C2]; subst. inversion C2 as [? N|]; subst; [|match goal with H : cut_at _ _ [] |- _ => inversion H end].
    split; [reflexivity|]. split; [|apply not_occurs; exact N]. pose proof (cut_pieces [c] (k ++ [c] ++ v) [k; v] ltac:(discriminate) C k (or_introl eq_refl)) as P. apply not_occurs. exact P.
  - intros (-> & Nk & Nv). change (k ++ c :: v) with (k ++ [c] ++ v). constructor; [|constructor; apply not_occurs; exact Nv]. intros i (a & b & E & <-). destruct (le_lt_dec (length k) (length a)) as [L|L]; [exact L|]. exfalso. apply Nk.
    assert (K : nth_error (a ++ [c] ++ b) (length a) = Some c) by (rewrite nth_error_app2, Nat.sub_diag by lia; reflexivity). rewrite <- E, nth_error_app1 in K by exact L. eapply nth_error_In; exact K.
Qed.
Lemma sides_ok line : exists r, sides line = Ok r /\ (forall k v, r = Some (k, v) <-> says line k v).
Proof.
  unfold sides. destruct (trim_ok line white) as (t & E & (a & b & Hl & A & B) & C). rewrite E. cbn [obind].
  assert (St : forall k v, says line k v <-> (forall u, t <> "#"%char :: u) /\ t = k ++ "="%char :: v /\ ~ In "="%char k /\ ~ In "="%char v).
  { intros k v. split.
    - intros (t' & ((a' & b' & Hl' & A' & B') & C') & Rest). assert (t' = t) as ->; [|exact Rest]. eapply (made_unique blank_chars a' t' b' a t b); [rewrite <- Hl'; exact Hl|assumption..].
    - intros R. exists t. split; [|exact R]. split; [exists a, b; auto|exact C]. }
  assert (H0 : (exists u, t = "#"%char :: u) \/ (forall u, t <> "#"%char :: u)).
  { destruct t as [|c u]; [right; discriminate|]. destruct (ascii_dec c "#"%char) as [->|N]; [left; eauto|right; congruence]. }
  destruct H0 as [(u & ->)|H0].
  - exists None. split; [reflexivity|]. intros k v. split; [discriminate|]. intros S. apply St in S. exfalso. apply (proj1 S u). reflexivity.
  - destruct (split_ok t [eqsign] ltac:(discriminate)) as (w & Ew & Cw).
    assert (G : (w' <- split t [eqsign] ;; match w' with [k; v] => Ok (Some (k, v)) | _ => Ok None end) = Ok (match w with [k; v] => Some (k, v) | _ => None end)) by (rewrite Ew; cbn [obind]; destruct w as [|? [|? [|? ?]]]; reflexivity).
    exists (match w with [k; v] => Some (k, v) | _ => None end). split.
    + destruct t as [|c u]; [exact G|]. destruct c as [b0 b1 b2 b3 b4 b5 b6 b7]. destruct b0, b1, b2, b3, b4, b5, b6, b7; try exact G. exfalso. apply (H0 u). reflexivity.
    + intros k v. rewrite St. split.
      * intros Ek. split; [exact H0|]. apply (proj1 (cut_two eqsign t k v)). destruct w as [|? [|? [|? ?]]]; try discriminate. injection Ek as -> ->. exact Cw.
      * intros (_ & R). apply (proj2 (cut_two eqsign t k v)) in R. rewrite (cut_fun _ _ _ Cw _ R). reflexivity.
Qed.
Lemma says_fun line k v k' v' : says line k v -> says line k' v' -> k = k' /\ v = v'.
Proof. intros A B. destruct (sides_ok line) as (r & _ & H). apply H in A. apply H in B. rewrite A in B. injection B as -> ->. auto. Qed.

(* reading all lines: g gives what is stored for a value, or nothing *)
Section Reading.
Context {V : Type}.
Variable g : list ascii -> option V.
Definition step (db : list (list ascii * V)) (line : list ascii) : outcome (list (list ascii * V)) :=
  s <- sides line ;; Ok (match s with Some (k, v) => match g v with Some x => insert k x db | None => db end | None => db end).
Definition gives (line : list ascii) (k : list ascii) (x : V) : Prop := exists v, says line k v /\ g v = Some x.
Definition first_given (l : list (list ascii)) (k : list ascii) (x : V) : Prop :=
  exists i line, nth_error l i = Some line /\ gives line k x /\ forall j line' x', j < i -> nth_error l j = Some line' -> ~ gives line' k x'.
Lemma step_ok db line : ordered db -> exists db', step db line = Ok db' /\ ordered db' /\
  (forall k x, find k db' = Some x <-> find k db = Some x \/ find k db = None /\ gives line k x).
Proof.
  intros O. unfold step. destruct (sides_ok line) as (r & E & H). rewrite E. cbn [obind]. eexists. split; [reflexivity|].
  destruct r as [[k v]|].
  - pose proof (proj1 (H k v) eq_refl) as Sk. destruct (g v) as [y|] eqn:G.
    + split; [apply insert_ordered; exact O|]. intros k' x. rewrite find_insert by exact O. destruct (list_eq_dec ascii_dec k' k) as [->|N].
      * destruct (find k db) as [z|] eqn:F; [intuition congruence|]. split; [intros X; injection X as <-; right; split; [reflexivity|exists v; auto]|]. intros [X|[_ (v' & S' & G')]]; [discriminate|]. destruct (says_fun _ _ _ _ _ Sk S') as [_ <-]. congruence.
      * split; [auto|]. intros [X|[_ (v' & S' & G')]]; [exact X|]. destruct (says_fun _ _ _ _ _ Sk S') as [<- _]. congruence.
    + split; [exact O|]. intros k' x. split; [auto|]. intros [X|[_ (v' & S' & G')]]; [exact X|]. destruct (says_fun _ _ _ _ _ Sk S') as [_ <-]. congruence.
  - split; [exact O|]. intros k' x. split; [auto|]. intros [X|[_ (v' & S' & G')]]; [exact X|]. apply H in S'. discriminate.
Qed.
Lemma steps_ok : forall l db, ordered db -> exists db', ofold step l db = Ok db' /\ ordered db' /\
  (forall k x, find k db' = Some x <-> find k db = Some x \/ find k db = None /\ first_given l k x).
Proof.
  induction l as [|line l IH]; intros db O.
  - exists db. split; [reflexivity|]. split; [exact O|]. intros k x. split; [auto|]. intros [X|[_ (i & line & K & _)]]; [exact X|]. destruct i; discriminate.
  - cbn [ofold]. destruct (step_ok db line O) as (db1 & E1 & O1 & F1). rewrite E1. cbn [obind]. destruct (IH db1 O1) as (db2 & E2 & O2 & F2). exists db2. split; [exact E2|]. split; [exact O2|].
    intros k x. rewrite F2, F1. destruct (find k db) as [z|] eqn:F.
    + split; [intros [[X|[X _]]|[X _]]; [auto|discriminate|]|intros [X|[X _]]; [auto|discriminate]]. pose proof (proj2 (F1 k z) (or_introl F)). congruence.
    + split.
      * intros [[X|[_ G]]|[X (i & ln & K & G & Fst)]]; [discriminate| |]; right; (split; [reflexivity|]).
        { exists 0, line. split; [reflexivity|]. split; [exact G|]. intros; lia. }
        { exists (S i), ln. split; [exact K|]. split; [exact G|]. intros j ln' x' L Kj. destruct j; [injection Kj as <-; intros G'; pose proof (proj2 (F1 k x') (or_intror (conj F G'))); congruence|]. eapply Fst; [|exact Kj]. lia. }
      * intros [X|[_ (i & ln & K & G & Fst)]]; [discriminate|]. destruct i as [|i].
        { injection K as ->. left. right. auto. }
        { right. split; [|exists i, ln; split; [exact K|]; split; [exact G|]; intros j ln' x' L Kj; apply (Fst (S j) ln' x'); [lia|exact Kj]].
          destruct (find k db1) as [y|] eqn:Y; [|reflexivity]. exfalso. apply F1 in Y. destruct Y as [Y|[_ Y]]; [congruence|]. apply (Fst 0 line y); [lia|reflexivity|exact Y]. }
Qed.
End Reading.

Lemma pieces_lines content : lines content (AsciiModel.pieces content).
Proof.
  unfold lines. rewrite <- (AsciiProofs4.pieces_joined content) at 1. apply joints_cut; [discriminate|apply AsciiProofs4.pieces_nonempty|].
  pose proof (AsciiProofs4.pieces_free content) as F. generalize dependent (AsciiModel.pieces content). change AsciiModel.nl with "010"%char in *. clear.
  intros w F i O. revert i O. induction F as [|x w Hx F IH]; intros i O.
  - destruct O as (a & b & E & _). cbn in E. destruct a; discriminate.
  - destruct w as [|y w].
    + exfalso. destruct O as (a & b & E & _). cbn [joined] in E. apply (Hx "010"%char); [rewrite E; apply in_or_app; right; left; reflexivity|left; reflexivity].
    + change (joined (x :: y :: w) ["010"%char]) with (x ++ ["010"%char] ++ joined (y :: w) ["010"%char]) in O. change (joints (x :: y :: w) ["010"%char]) with (length x :: map (fun i => length x + 1 + i) (joints (y :: w) ["010"%char])).
      destruct O as (a & b & E & La). destruct (lt_eq_lt_dec i (length x)) as [[L|L]|L]; [|left; symmetry; exact L|right].
      * exfalso. assert (K : nth_error (a ++ ["010"%char] ++ b) i = Some "010"%char) by (rewrite nth_error_app2 by lia; replace (i - length a) with 0 by lia; reflexivity). rewrite <- E, nth_error_app1 in K by exact L. apply (Hx "010"%char); [eapply nth_error_In; exact K|left; reflexivity].
      * apply in_map_iff. exists (i - length x - 1). split; [lia|]. apply IH. exists (skipn (length x + 1) a), b. split; [|rewrite skipn_length; lia].
        apply (f_equal (skipn (length x + 1))) in E. rewrite skipn_app in E. rewrite (skipn_all2 x) in E by lia. replace (length x + 1 - length x) with 1 in E by lia. cbn [app skipn] in E. rewrite E. rewrite skipn_app. replace (length x + 1 - length a) with 0 by lia. reflexivity.
Qed.

(* suggestions *)
Definition dist (a b : list ascii) : nat := match distance a b with Ok d => d | _ => 0 end.
Lemma dist_ok a b : distance a b = Ok (dist a b).
Proof. unfold dist. rewrite distance_ok. reflexivity. Qed.
Lemma suggest_fold {V} name : forall (m : list (list ascii * V)) best l, 
  exists best' l', ofold (fun '(best, l) (kv : list ascii * V) => d <- distance name (fst kv) ;;
      Ok (match best with
          | None => (Some d, [fst kv])
          | Some b => if d <? b then (Some d, [fst kv]) else if d =? b then (Some b, l ++ [fst kv]) else (best, l)
          end)) m (best, l) = Ok (best', l') /\
   (match best with
    | Some b => exists b', best' = Some b' /\ b' <= b /\ (forall k, In k (map fst m) -> b' <= dist name k) /\ (b' < b -> In b' (map (dist name) (map fst m))) /\
        l' = (if b' =? b then l else []) ++ filter (fun k => dist name k =? b') (map fst m)
    | None => match m with [] => best' = None /\ l' = l | _ => exists b', best' = Some b' /\ (forall k, In k (map fst m) -> b' <= dist name k) /\ In b' (map (dist name) (map fst m)) /\ l' = filter (fun k => dist name k =? b') (map fst m) end
    end).
Proof.
  induction m as [|[k v] m IH]; intros best l.
  - exists best, l. split; [reflexivity|]. destruct best as [b|]; [|auto]. exists b. rewrite Nat.eqb_refl, app_nil_r. split; [reflexivity|]. split; [lia|]. split; [intros ? []|]. split; [lia|reflexivity].
  - cbn [ofold fst]. rewrite dist_ok. cbn [obind map filter]. set (d := dist name k).
    assert (Base : forall l0, (exists best' l', ofold (fun '(best, l) (kv : list ascii * V) => d <- distance name (fst kv) ;;
      Ok (match best with
          | None => (Some d, [fst kv])
          | Some b => if d <? b then (Some d, [fst kv]) else if d =? b then (Some b, l ++ [fst kv]) else (best, l)
          end)) m (Some d, l0) = Ok (best', l') /\ exists b', best' = Some b' /\ b' <= d /\ (forall k0, k = k0 \/ In k0 (map fst m) -> b' <= dist name k0) /\ In b' (d :: map (dist name) (map fst m)) /\ l' = (if b' =? d then l0 else []) ++ filter (fun k => dist name k =? b') (map fst m))).
    { intros l0. destruct (IH (Some d) l0) as (best' & l' & E & b' & -> & L & M & I & ->). exists (Some b'), ((if b' =? d then l0 else []) ++ filter (fun k => dist name k =? b') (map fst m)). split; [exact E|]. exists b'. split; [reflexivity|]. split; [exact L|]. split; [intros k0 [<-|K]; [exact L|apply M; exact K]|]. split; [|reflexivity]. destruct (Nat.eq_dec b' d) as [->|N]; [left; reflexivity|right; apply I; lia]. }
    destruct best as [b|].
    + destruct (Nat.ltb_spec d b) as [L|L].
      * destruct (Base [k]) as (best' & l' & E & b' & -> & L' & M & I & ->). do 2 eexists. split; [exact E|]. exists b'. split; [reflexivity|]. split; [lia|]. split; [exact M|]. split; [intros _; exact I|]. destruct (Nat.eqb_spec b' b); [lia|]. cbn [map fst filter]; fold d; rewrite (Nat.eqb_sym d b'). destruct (b' =? d); reflexivity.
      * destruct (Nat.eqb_spec d b) as [E0|N].
        { destruct (IH (Some b) (l ++ [k])) as (best' & l' & E & b' & -> & L' & M & I & ->). do 2 eexists. split; [exact E|]. exists b'. split; [reflexivity|]. split; [lia|]. split; [intros k0 [<-|K]; [cbn [fst]; fold d; lia|apply M; exact K]|]. split; [intros X; right; apply I; exact X|]. cbn [map fst filter]; fold d; rewrite E0. rewrite (Nat.eqb_sym b b'). destruct (b' =? b); [rewrite <- app_assoc; reflexivity|reflexivity]. }
        { destruct (IH (Some b) l) as (best' & l' & E & b' & -> & L' & M & I & ->). do 2 eexists. split; [exact E|]. exists b'. split; [reflexivity|]. split; [lia|]. split; [intros k0 [<-|K]; [cbn [fst]; fold d; lia|apply M; exact K]|]. split; [intros X; right; apply I; exact X|]. cbn [map fst filter]; fold d; destruct (Nat.eqb_spec d b'); [lia|reflexivity]. }
    + destruct (Base [k]) as (best' & l' & E & b' & -> & L' & M & I & ->). do 2 eexists. split; [exact E|]. exists b'. split; [reflexivity|]. split; [exact M|]. split; [exact I|]. cbn [map fst filter]; fold d; rewrite (Nat.eqb_sym d b'). destruct (b' =? d); reflexivity.
Qed.
Lemma suggest_ok {V} (m : list (list ascii * V)) name : exists b, suggest m name = Ok (filter (fun k => dist name k =? b) (map fst m)) /\ (m <> [] -> (forall k, In k (map fst m) -> b <= dist name k) /\ In b (map (dist name) (map fst m))).
Proof.
  unfold suggest. destruct (suggest_fold name m None []) as (best' & l' & E & H). rewrite E. cbn [omap obind snd]. destruct m as [|p m].
  - exists 0. destruct H as [_ ->]. split; [reflexivity|congruence].
  - destruct H as (b' & -> & M & I & ->). exists b'. split; [reflexivity|]. intros _. auto.
Qed.
