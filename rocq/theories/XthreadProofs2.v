(* Lemmas on cross matching with several threads, part 2: the shares of the threads and their
   merging. *)
From Coq Require Import ZifyBool ZifyNat.
From Verif Require Import Base IndexModel VecModel VecProofs ImageModel ImageProofs MatModel MatProofs XmatchModel XmatchProofs3 AsciiProofs6 XbuckModel XthreadModel XthreadSpec XthreadProofs.
Local Open Scope nat_scope.

Lemma combine_inv {S V} (I : nat -> S -> Prop) (P : nat -> V -> Prop) (h : S -> nat * V -> outcome S) : forall b a vs s,
  I a s -> Forall2 P (seq a b) vs ->
  (forall t v s, a <= t < a + b -> P t v -> I t s -> exists s', h s (t, v) = Ok s' /\ I (Datatypes.S t) s') ->
  exists s', ofold h (combine (seq a b) vs) s = Ok s' /\ I (a + b) s'.
Proof.
  induction b as [|b IH]; intros a vs s Hs F H; cbn [seq] in *.
  - inversion F; subst. cbn [combine ofold]. exists s. rewrite Nat.add_0_r. auto.
  - inversion F; subst. cbn [combine ofold]. destruct (H a y s ltac:(lia) ltac:(assumption) Hs) as (s1 & -> & H1). cbn [obind].
    destruct (IH (Datatypes.S a) l' s1 H1) as (s' & E & H'); [assumption|intros; apply H; [lia|assumption|assumption]|].
    exists s'. split; [exact E|]. replace (a + Datatypes.S b) with (Datatypes.S a + b) by lia. exact H'.
Qed.

(* the columns b <= i < e of fin are put after the first b *)
Lemma copy_step {A} (z : A) rows n b e (from to fin : list A) : 1 <= rows -> (Z.of_nat n <= max_ptrs)%Z -> b < e <= n ->
  length from = rows * n -> length to = rows * n ->
  (forall k i, k < rows -> b <= i < e -> nth_error from (k * n + i) = nth_error fin (k * n + i)) ->
  (forall k i, k < rows -> i < b -> nth_error to (k * n + i) = nth_error fin (k * n + i)) ->
  exists to', copy_cols rows n b e from to = Ok to' /\ length to' = rows * n /\
    forall k i, k < rows -> i < e -> nth_error to' (k * n + i) = nth_error fin (k * n + i).
Proof.
  intros Hrows Hbig Hb Lf Lt Hf Ht.
  pose proof (rep_total z rows n from Lf) as Rf. pose proof (rep_total z rows n to Lt) as Rt.
  destruct (copy_cols_ok (fun _ _ => None) rows n Hrows Hbig b e from to _ _ Hb Rf Rt) as (to' & E & L & R). exists to'. split; [exact E|].
  split; [exact L|]. intros k i Hk Hi. rewrite R by (try assumption; lia).
  destruct ((b <=? i) && (i <? e)) eqn:Eb.
  - rewrite <- Hf by (try assumption; lia). destruct Rf as (_ & Rf). rewrite Rf by (try assumption; lia). reflexivity.
  - rewrite <- Ht by (try assumption; lia). destruct Rt as (_ & Rt). rewrite Rt by (try assumption; lia). reflexivity.
Qed.

Section Half.
Variables (sqrtf : Z -> Z) (f : field) (ra1 de1 ra2 de2 : list Z) (rows nth_ : nat) (self : bool) (r : xres).
Hypothesis Hnth : 1 <= nth_ <= rows.
Hypothesis Hr : search_all sqrtf f ra1 de1 ra2 de2 rows nth_ self = Ok r.
Let n := length ra1.
Let e0 := empty_res rows n 0 true.

Lemma one_frame i : i < n -> frame rows n i (fun r => search_one sqrtf f ra1 de1 ra2 de2 nth_ self r i).
Proof.
  intros Hi. unfold search_one. destruct (bucket_of f ra1 de1 i) as [x0 y0]. apply frame_search; fold n; lia.
Qed.
Lemma e0_full : full rows n e0.
Proof. split; apply repeat_length. Qed.
Lemma all_full : full rows n r /\ forall i, i < n -> exists e, search_one sqrtf f ra1 de1 ra2 de2 nth_ self e0 i = Ok e /\ col_eq rows n i r e.
Proof.
  destruct (run_ok rows n (search_one sqrtf f ra1 de1 ra2 de2 nth_ self) e0 one_frame e0_full n 0 e0 r e0_full) as (F & _ & C).
  - lia.
  - intros. apply col_eq_refl.
  - exact Hr.
  - split; [exact F|]. intros i Hi. apply C. lia.
Qed.
Lemma range_ok b e : e <= n -> exists v, search_range sqrtf f ra1 de1 ra2 de2 rows nth_ self b e = Ok v /\ full rows n v /\
  forall i, b <= i < e -> col_eq rows n i v r.
Proof.
  intros He. destruct all_full as (F & C). destruct (Nat.le_gt_cases e b) as [Hle|Hlt].
  - exists e0. unfold search_range. replace (e - b) with 0 by lia. split; [reflexivity|]. split; [apply e0_full|]. intros; lia.
  - destruct (run_ex rows n (search_one sqrtf f ra1 de1 ra2 de2 nth_ self) e0 one_frame e0_full (e - b) b e0 e0_full) as (v & E).
    + lia.
    + intros. apply col_eq_refl.
    + intros i Hi. destruct (C i) as (x & Ex & _); [lia|]. eauto.
    + exists v. split; [exact E|].
      destruct (run_ok rows n (search_one sqrtf f ra1 de1 ra2 de2 nth_ self) e0 one_frame e0_full (e - b) b e0 v e0_full) as (Fv & _ & Cv).
      * lia.
      * intros. apply col_eq_refl.
      * exact E.
      * split; [exact Fv|]. intros i Hi. destruct (Cv i) as (x & Ex & Cx); [lia|]. destruct (C i) as (y & Ey & Cy); [lia|].
        rewrite Ex in Ey. injection Ey as <-. eapply col_eq_trans; [exact Cx|apply col_eq_sym; exact Cy].
Qed.
End Half.

(* no share of a thread goes over the end *)
Definition fair (n thread assigned : nat) : Prop := (thread - 1) * assigned <= n.
Lemma last_of_le n thread assigned t : fair n thread assigned -> t < thread -> last_of n thread assigned t <= n.
Proof.
  unfold last_of, fair. intros H Ht. destruct (Nat.eqb_spec t (thread - 1)); [lia|].
  assert ((t + 1) * assigned <= (thread - 1) * assigned) by (apply Nat.mul_le_mono_r; lia). lia.
Qed.
Lemma shared_fair n thread assigned : shared n thread assigned -> fair n thread assigned.
Proof. unfold shared, fair. lia. Qed.
Lemma shared_share n thread assigned t : shared n thread assigned -> t < thread ->
  first_of assigned t < last_of n thread assigned t <= n /\
  (S t < thread -> last_of n thread assigned t = first_of assigned (S t)) /\ (S t = thread -> last_of n thread assigned t = n).
Proof.
  intros H Ht. split; [split|].
  - unfold first_of, last_of. destruct (Nat.eqb_spec t (thread - 1)) as [->|]; unfold shared in H; lia.
  - apply last_of_le; [apply shared_fair|]; assumption.
  - unfold first_of, last_of. destruct (Nat.eqb_spec t (thread - 1)); lia.
Qed.

Lemma cols_all {A} rows n (l m : list A) : length l = rows * n -> length m = rows * n ->
  (forall k i, k < rows -> i < n -> nth_error l (k * n + i) = nth_error m (k * n + i)) -> l = m.
Proof.
  intros L M H. apply list_eq_nth_error. intros p. destruct (Nat.lt_ge_cases p (rows * n)) as [Hp|Hp].
  - assert (n <> 0) by lia. rewrite (Nat.div_mod_eq p n), Nat.mul_comm. apply H.
    + apply Nat.div_lt_upper_bound; lia.
    + apply Nat.mod_upper_bound. assumption.
  - rewrite (proj2 (nth_error_None l p)), (proj2 (nth_error_None m p)) by lia. reflexivity.
Qed.

Lemma copy_none {A} rows n (from to : list A) : (Z.of_nat n <= max_ptrs)%Z -> copy_cols rows n 0 0 from to = CheckFail.
Proof.
  intros Hbig. unfold copy_cols. change (wrap64 (Z.of_nat 0 - 1)) with 18446744073709551615%Z.
  unfold rng_loop, check_bounds. destruct (Z.ltb_spec 18446744073709551615 (Z.of_nat n)); [|reflexivity].
  unfold max_ptrs in Hbig. lia.
Qed.

Lemma Forall2_impl_in {A B} (P Q : A -> B -> Prop) l m : (forall a b, In a l -> P a b -> Q a b) -> Forall2 P l m -> Forall2 Q l m.
Proof.
  intros H F. induction F; constructor; [apply H; [left; reflexivity|assumption]|]. apply IHF. intros. apply H; [right|]; assumption.
Qed.
