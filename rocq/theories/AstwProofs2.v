(* Proofs about the conversions along one axis. *)
From Coq Require Import Ascii String QArith Qcanon.
From Verif Require Import Base AstwModel AstwSpec AstwProofs.
Local Open Scope list_scope.
Local Open Scope nat_scope.
Notation length := List.length.

Lemma type_eqb_iff a b : type_eqb a b = true <-> a = b.
Proof. destruct a, b; cbn; split; congruence. Qed.
Lemma valid_unit_ok a p d u : w a = Some p -> d < naxis p -> length (has_unit a) = naxis p -> length (type a) = naxis p ->
  exists b, valid_unit a d u = Ok b /\ (b = true <-> allowed a d u).
Proof.
  intros W D Lh Lt. unfold valid_unit, axis_count. rewrite W. destruct (Nat.leb_spec (naxis p) d) as [|_]; [lia|].
  destruct (nth_error (has_unit a) d) as [h|] eqn:H; [|apply nth_error_None in H; lia]. rewrite (oget_some _ _ _ H). cbn [obind].
  destruct (nth_error (type a) d) as [y|] eqn:Y; [|apply nth_error_None in Y; lia]. rewrite (oget_some _ _ _ Y). cbn [obind].
  assert (A : allowed a d u <-> (h = true <-> u <> native) /\ measures u y).
  { unfold allowed. rewrite H, Y. split; [intros (h' & y' & E1 & E2 & X); injection E1 as <-; injection E2 as <-; exact X|intros X; exists h, y; auto]. }
  destruct h, (is_native u) eqn:N; cbn [negb].
  - exists false. split; [reflexivity|]. rewrite A. destruct u; try discriminate. split; [discriminate|]. intros [[X _] _]. destruct (X eq_refl). reflexivity.
  - eexists. split; [reflexivity|]. rewrite A. assert (U : u <> native) by (intros ->; discriminate).
    split; [|intros [_ M]; destruct u, y; cbn in *; try reflexivity; destruct M; congruence].
    intros E. split; [tauto|]. destruct u, y; cbn in *; auto; discriminate.
  - eexists. split; [reflexivity|]. rewrite A. destruct u; try discriminate. cbn. rewrite Bool.andb_false_r. cbn. split; [|reflexivity].
    intros _. split; [|exact I]. split; [discriminate|intros X; destruct X; reflexivity].
  - exists false. split; [reflexivity|]. rewrite A. split; [discriminate|]. intros [[_ X] _]. assert (false = true); [apply X; intros ->; discriminate|discriminate].
Qed.
Lemma row_with_ok ref n d x : length ref = n -> d < n -> exists v, row_with ref n d x = Ok v /\ on_axis ref (n - 1 - d) x v.
Proof.
  intros L D. unfold row_with. assert (G : forall k s, s + k = n -> exists v, omapl (fun f => if f =? n - 1 - d then Ok x else oget ref f) (seq s k) = Ok v /\ length v = k /\
    forall i, i < k -> nth_error v i = if s + i =? n - 1 - d then Some x else nth_error ref (s + i)).
  { induction k as [|k IH]; intros s E; cbn [seq omapl].
    - exists []. split; [reflexivity|]. split; [reflexivity|]. intros i I. lia.
    - destruct (IH (S s)) as (v & Ev & Lv & Fv); [lia|]. rewrite Ev. assert (Y : exists y, (if s =? n - 1 - d then Ok x else oget ref s) = Ok y /\ (if s =? n - 1 - d then Some x else nth_error ref s) = Some y).
      { destruct (s =? n - 1 - d); [exists x; auto|]. destruct (nth_error ref s) as [y|] eqn:Y; [|apply nth_error_None in Y; lia]. exists y. split; [now apply oget_some|reflexivity]. }
      destruct Y as (y & -> & Y). cbn [obind]. exists (y :: v). split; [reflexivity|]. split; [cbn; lia|]. intros [|i] I.
      + rewrite Nat.add_0_r. now rewrite Y.
      + cbn [nth_error]. rewrite Fv by lia. replace (S s + i) with (s + S i) by lia. reflexivity. }
  destruct (G n 0 eq_refl) as (v & E & Lv & F). exists v. split; [exact E|]. split; [congruence|]. split.
  - rewrite F by lia. cbn [Nat.add]. now rewrite Nat.eqb_refl.
  - intros k K. destruct (Nat.lt_ge_cases k n) as [Lk|Lk].
    + rewrite F by exact Lk. cbn [Nat.add]. now rewrite (proj2 (Nat.eqb_neq _ _) K).
    + rewrite (proj2 (nth_error_None v k)) by lia. symmetry. apply nth_error_None. lia.
Qed.
Lemma omapl_rel {A B} (f : A -> outcome B) (R : A -> B -> Prop) l : (forall x, In x l -> exists y, f x = Ok y /\ R x y) -> exists r, omapl f l = Ok r /\ Forall2 R l r.
Proof.
  induction l as [|x l IH]; intros H; cbn [omapl]; [exists []; split; [reflexivity|constructor]|].
  destruct (H x) as (y & -> & Y); [left; reflexivity|]. cbn [obind]. destruct IH as (r & -> & F); [intros z Z; apply H; right; exact Z|]. cbn [obind]. exists (y :: r). split; [reflexivity|now constructor].
Qed.
Lemma lines_ok ref (f : list Qc -> list Qc) n d x : length ref = n -> d < n -> (forall v, length v = n -> length (f v) = n) ->
  exists pix r, omapl (row_with ref n d) x = Ok pix /\ omapl (fun v => oget (f v) (n - 1 - d)) pix = Ok r /\
    Forall2 (fun z y => exists v, on_axis ref (n - 1 - d) z v /\ nth_error (f v) (n - 1 - d) = Some y) x r.
Proof.
  intros L D F. destruct (omapl_rel (row_with ref n d) (on_axis ref (n - 1 - d)) x) as (pix & E & R); [intros z _; now apply row_with_ok|].
  destruct (omapl_rel (fun v => oget (f v) (n - 1 - d)) (fun v y => nth_error (f v) (n - 1 - d) = Some y) pix) as (r & E' & R').
  - intros v V. assert (Lv : length v = n).
    { clear - R V L. induction R as [|a b la lb H R IH]; [destruct V|]. destruct V as [->|V]; [destruct H; congruence|auto]. }
    destruct (nth_error (f v) (n - 1 - d)) as [y|] eqn:Y; [|apply nth_error_None in Y; rewrite F in Y by exact Lv; lia]. exists y. split; [now apply oget_some|reflexivity].
  - exists pix, r. split; [exact E|]. split; [exact E'|]. clear E E'. revert r R'. induction R as [|z v lx lp H R IH]; intros r R'; inversion R'; subst; constructor; eauto.
Qed.
Lemma prepare_ok a p d u : w a = Some p -> d < naxis p -> length (has_unit a) = naxis p -> length (type a) = naxis p ->
  (allowed a d u -> prepare a d u = Ok p) /\ (~ allowed a d u -> prepare a d u = CheckFail).
Proof.
  intros W D Lh Lt. unfold prepare. rewrite W. rewrite (proj2 (Nat.ltb_lt _ _) D). cbn [check obind]. destruct (valid_unit_ok a p d u W D Lh Lt) as (b & -> & B). cbn [obind].
  destruct b; cbn [check obind]; (split; [intros A|intros A]); try reflexivity.
  - destruct A. now apply B.
  - apply B in A. discriminate.
Qed.
Lemma conv_size pi u : pi <> Q2Qc 0 -> (conv_si2unit pi u * size_of pi u)%Qc = Q2Qc 1.
Proof.
  intros P. destruct u; try (apply Qc_is_canon; reflexivity). cbn [conv_si2unit size_of]. field. split; [exact P|]. intros X. apply (f_equal this) in X. discriminate.
Qed.
Lemma conv_nonzero pi u : pi <> Q2Qc 0 -> conv_si2unit pi u <> Q2Qc 0.
Proof.
  intros P X. pose proof (conv_size pi u P) as E. rewrite X in E. assert (Z : (Q2Qc 0 * size_of pi u)%Qc = Q2Qc 0) by ring. rewrite Z in E. apply (f_equal this) in E. discriminate.
Qed.
