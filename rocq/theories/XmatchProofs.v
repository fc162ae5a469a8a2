(* Lemmas on cross matching, part 1: the bounded sorted list of a source. *)
From Coq Require Import ZifyBool ZifyNat.
From Verif Require Import Base IndexModel IndexProofs VecModel VecProofs ImageModel ImageProofs MatModel MatProofs XmatchModel XmatchSpec.

Notation entry := (option (Z * nat)).
Definition ed (e : entry) : option Z := option_map fst e.
Definition ei (e : entry) : option nat := option_map snd e.

Lemma dlt_trans_ge a b c : dlt a b = false -> dlt b c = false -> dlt a c = false.
Proof. destruct a, b, c; cbn; intros; try congruence; lia. Qed.
Lemma dlt_irrefl a : dlt a a = false.
Proof. destruct a; cbn; [lia|reflexivity]. Qed.

(* insertion before the first larger element *)
Fixpoint inso (e : entry) (l : list entry) : list entry :=
  match l with
  | [] => [e]
  | a :: l => if dlt (ed e) (ed a) then e :: a :: l else a :: inso e l
  end.
Fixpoint ins (e : Z * nat) (s : list (Z * nat)) : list (Z * nat) :=
  match s with
  | [] => [e]
  | a :: s' => if (fst e <? fst a)%Z then e :: s else a :: ins e s'
  end.
(* insertion from the back: A is reversed *)
Fixpoint insr (e : entry) (A B : list entry) : list entry :=
  match A with
  | [] => e :: B
  | a :: A' => if dlt (ed e) (ed a) then insr e A' (a :: B) else rev A ++ e :: B
  end.

Definition osorted (l : list entry) : Prop := StronglySorted (fun a b => dlt (ed b) (ed a) = false) l.

Lemma inso_app_lt e a R : dlt (ed e) (ed a) = true -> forall A, inso e (A ++ a :: R) = inso e A ++ a :: R.
Proof.
  intros H. induction A as [|b A IH]; cbn [app inso].
  - rewrite H. reflexivity.
  - destruct (dlt (ed e) (ed b)); [reflexivity|]. rewrite IH. reflexivity.
Qed.
Lemma osorted_app_r l m : osorted (l ++ m) -> osorted m.
Proof. induction l as [|a l IH]; intros H; [exact H|]. apply StronglySorted_inv in H as (H & _). auto. Qed.
Lemma osorted_app_l l m : osorted (l ++ m) -> osorted l.
Proof.
  induction l as [|a l IH]; intros H; [constructor|]. apply StronglySorted_inv in H as (H & F). constructor; [exact (IH H)|].
  rewrite Forall_app in F. exact (proj1 F).
Qed.
Lemma inso_app_ge e a R : forall A, dlt (ed e) (ed a) = false -> osorted (A ++ a :: R) ->
  inso e (A ++ a :: R) = A ++ a :: inso e R.
Proof.
  induction A as [|b A IH]; intros H Hs; cbn [app inso].
  - rewrite H. reflexivity.
  - apply StronglySorted_inv in Hs as (Hs & F).
    assert (dlt (ed e) (ed b) = false).
    { apply dlt_trans_ge with (ed a); [exact H|]. rewrite Forall_forall in F. apply F. apply in_or_app; right; left; reflexivity. }
    rewrite H0, IH by assumption. reflexivity.
Qed.
Lemma insr_inso e : forall A B, osorted (rev A) -> insr e A B = inso e (rev A) ++ B.
Proof.
  induction A as [|a A IH]; intros B Hs; cbn [insr rev]; [reflexivity|].
  destruct (dlt (ed e) (ed a)) eqn:E.
  - cbn [rev] in Hs. rewrite IH by (eapply osorted_app_l; eauto). rewrite inso_app_lt by exact E.
    rewrite <- app_assoc. reflexivity.
  - cbn [rev] in Hs. rewrite inso_app_ge by assumption. cbn [inso]. rewrite <- !app_assoc. reflexivity.
Qed.
Lemma inso_length e l : length (inso e l) = S (length l).
Proof. induction l as [|a l IH]; cbn [inso length]; [reflexivity|]. destruct (dlt _ _); cbn [length]; lia. Qed.
Lemma inso_some e m : m <> 0 -> forall s, inso (Some e) (map Some s ++ repeat None m) = map Some (ins e s) ++ repeat None m.
Proof.
  intros Hm. induction s as [|a s IH]; cbn [map app ins].
  - destruct m as [|m]; [congruence|]. reflexivity.
  - cbn [inso ed option_map dlt]. destruct (fst e <? fst a)%Z; [reflexivity|]. rewrite IH. reflexivity.
Qed.

Lemma ins_perm e s : Permutation (e :: s) (ins e s).
Proof.
  induction s as [|a s IH]; cbn [ins]; [reflexivity|]. destruct (_ <? _)%Z; [reflexivity|].
  rewrite <- IH. constructor.
Qed.
Lemma ins_sorted e s : StronglySorted nearer s -> (forall a, In a s -> snd a < snd e) -> StronglySorted nearer (ins e s).
Proof.
  induction s as [|a s IH]; intros Hs Hj; cbn [ins]; [repeat constructor|].
  apply StronglySorted_inv in Hs as (Hs & F). destruct (Z.ltb_spec (fst e) (fst a)) as [H|H].
  - constructor; [constructor; assumption|]. constructor; [left; exact H|].
    rewrite Forall_forall in F |- *. intros b Hb. specialize (F b Hb). left. unfold nearer in F. lia.
  - constructor; [apply IH; auto; intros b Hb; apply Hj; right; exact Hb|].
    rewrite Forall_forall in F |- *. intros b Hb.
    apply (Permutation_in _ (Permutation_sym (ins_perm e s))) in Hb as [<-|Hb]; [|auto].
    unfold nearer. specialize (Hj a (or_introl eq_refl)). lia.
Qed.
Lemma padded_sorted s m : StronglySorted nearer s -> osorted (map Some s ++ repeat None m).
Proof.
  induction s as [|a s IH]; intros Hs; cbn [map app].
  - induction m as [|m IH]; cbn [repeat]; constructor; [exact IH|]. apply Forall_forall. intros x Hx.
    apply repeat_spec in Hx. subst. reflexivity.
  - apply StronglySorted_inv in Hs as (Hs & F). constructor; [exact (IH Hs)|]. apply Forall_app. split.
    + rewrite Forall_forall in F |- *. intros x Hx. apply in_map_iff in Hx as (b & <- & Hb). specialize (F b Hb).
      cbn. unfold nearer in F. lia.
    + apply Forall_forall. intros x Hx. apply repeat_spec in Hx. subst. reflexivity.
Qed.

(* ---- the list of n nearest ---- *)
Definition topn (n : nat) (s : list (Z * nat)) : list entry := firstn n (map Some s ++ repeat None n).
Lemma topn_length n s : length (topn n s) = n.
Proof. unfold topn. rewrite firstn_length, app_length, repeat_length. lia. Qed.
(* what work does to the list of its source *)
Definition step (col : list entry) (sd : option Z) (j : nat) : list entry :=
  if dlt sd (ed (last col None)) then
    insr (match sd with Some x => Some (x, j) | None => None end) (rev (removelast col)) []
  else col.
Lemma split_at {A} (l : list A) n : 1 <= n -> n <= length l -> exists B a R, l = B ++ a :: R /\ length B = n - 1.
Proof.
  intros H1 H2. exists (firstn (n - 1) l). destruct (skipn (n - 1) l) as [|a R] eqn:E.
  - apply (f_equal (@length _)) in E. rewrite skipn_length in E. cbn in E. lia.
  - exists a, R. split; [rewrite <- E; symmetry; apply firstn_skipn|]. rewrite firstn_length. lia.
Qed.
Lemma step_topn n s x j : 1 <= n -> StronglySorted nearer s ->
  step (topn n s) (Some x) j = topn n (ins (x, j) s).
Proof.
  intros Hn Hs. set (L := map Some s ++ repeat None n).
  assert (HL : osorted L) by (apply padded_sorted; exact Hs).
  destruct (split_at L n) as (B & a & R & E & HB); [exact Hn|unfold L; rewrite app_length, repeat_length; lia|].
  assert (ET : topn n s = B ++ [a]).
  { unfold topn. fold L. rewrite E. change (B ++ a :: R) with (B ++ [a] ++ R). rewrite app_assoc.
    rewrite firstn_app, firstn_all2 by (rewrite app_length; cbn; lia).
    replace (n - length (B ++ [a])) with 0 by (rewrite app_length; cbn; lia). rewrite firstn_O, app_nil_r. reflexivity. }
  unfold step. rewrite ET, last_last, removelast_last.
  unfold topn. rewrite <- inso_some by lia. fold L. rewrite E.
  assert (HB' : osorted B) by (apply (osorted_app_l B (a :: R)); rewrite <- E; exact HL).
  destruct (dlt (Some x) (ed a)) eqn:Ed.
  - rewrite insr_inso by (rewrite rev_involutive; exact HB'). rewrite rev_involutive, app_nil_r.
    rewrite inso_app_lt by exact Ed.
    rewrite firstn_app, firstn_all2 by (rewrite inso_length; lia).
    replace (n - length (inso (Some (x, j)) B)) with 0 by (rewrite inso_length; lia). rewrite firstn_O, app_nil_r. reflexivity.
  - rewrite inso_app_ge by (try exact Ed; rewrite <- E; exact HL).
    change (a :: inso (Some (x, j)) R) with ([a] ++ inso (Some (x, j)) R). rewrite app_assoc.
    rewrite firstn_app, firstn_all2 by (rewrite app_length; cbn; lia).
    replace (n - length (B ++ [a])) with 0 by (rewrite app_length; cbn; lia). rewrite firstn_O, app_nil_r. reflexivity.
Qed.
Lemma step_inf col j : step col None j = col.
Proof. reflexivity. Qed.

(* ---- all candidates of a source ---- *)
Section C.
Variables (dist : nat -> nat -> option Z) (self : bool) (n i : nat).
Definition colstep (col : list entry) (j : nat) := if self && (i =? j) then col else step col (dist i j) j.
Definition sstep (s : list (Z * nat)) (j : nat) :=
  if self && (i =? j) then s else match dist i j with Some x => ins (x, j) s | None => s end.
Lemma sstep_all n2 : let s := fold_left sstep (seq 0 n2) [] in
  Permutation (candidates dist n2 self i) s /\ StronglySorted nearer s.
Proof.
  induction n2 as [|n2 IH]; [split; constructor|]. cbv zeta in *. unfold candidates in *. rewrite seq_S, fold_left_app, flat_map_app.
  destruct IH as (P & S). set (s := fold_left sstep (seq 0 n2) []) in *.
  assert (Hlt : forall a, In a s -> snd a < n2).
  { intros a Ha. apply (Permutation_in _ (Permutation_sym P)) in Ha. apply in_flat_map in Ha as (j & Hj & Ha).
    apply in_seq in Hj. destruct (self && (i =? j)); [destruct Ha|]. destruct (dist i j); [|destruct Ha].
    destruct Ha as [<-|[]]. cbn. lia. }
  cbn [Nat.add fold_left flat_map]. unfold sstep. rewrite app_nil_r.
  destruct (self && (i =? n2)); [rewrite app_nil_r; auto|]. destruct (dist i n2) as [x|]; [|rewrite app_nil_r; auto].
  split.
  - rewrite <- ins_perm, <- P. rewrite <- Permutation_cons_append. reflexivity.
  - apply ins_sorted; auto.
Qed.
Lemma colstep_topn n2 : 1 <= n -> fold_left colstep (seq 0 n2) (repeat None n) = topn n (fold_left sstep (seq 0 n2) []).
Proof.
  intros Hn. induction n2 as [|n2 IH].
  - cbn [seq fold_left]. unfold topn. cbn [map app]. rewrite firstn_all2; [reflexivity|]. rewrite repeat_length. lia.
  - rewrite seq_S, !fold_left_app, IH. cbn [fold_left Nat.add]. unfold colstep.
    set (s := fold_left sstep (seq 0 n2) []). assert (S : StronglySorted nearer s) by apply sstep_all. clearbody s. unfold sstep.
    destruct (self && (i =? n2)); [reflexivity|]. destruct (dist i n2) as [x|].
    + apply step_topn; [exact Hn|exact S].
    + reflexivity.
Qed.
Lemma colstep_nearest n2 : 1 <= n ->
  n_nearest n (candidates dist n2 self i) (fold_left colstep (seq 0 n2) (repeat None n)).
Proof.
  intros Hn. exists (fold_left sstep (seq 0 n2) []). destruct (sstep_all n2) as (P & S).
  split; [exact P|]. split; [exact S|]. apply colstep_topn. exact Hn.
Qed.
End C.
