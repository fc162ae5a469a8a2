From Coq Require Import Ascii String Lia.
From Verif Require Import Base StrModel StrSpec StrProofs StrProperties KeyModel KeySpec KeyProofs HdrProofs WcshModel WcshSpec WcshProofs.
Local Open Scope list_scope.
Notation length := List.length.

Lemma occurs_single c s : occurs [c] s <-> In c s.
Proof.
  split.
  - intros (i & a & b & E & _). rewrite E. apply in_or_app. right. left. reflexivity.
  - intros I. apply in_split in I. destruct I as (a & b & ->). exists (length a), a, b. split; reflexivity.
Qed.
Lemma split_two c a b : ~ In c a -> ~ In c b -> split (a ++ c :: b) [c] = Ok [a; b].
Proof.
  intros A B. destruct (split_ok (a ++ c :: b) [c]) as (w & E & C); [discriminate|]. rewrite E. f_equal. eapply cut_fun; [exact C|].
  change (a ++ c :: b) with (a ++ [c] ++ b). apply cut_first.
  - intros i (u & v & E' & <-). change (u ++ [c] ++ v) with (u ++ c :: v) in E'. change (a ++ [c] ++ b) with (a ++ c :: b) in E'.
    destruct (Nat.le_gt_cases (length a) (length u)) as [|L]; [assumption|exfalso]. apply A.
    assert (X : nth_error (a ++ c :: b) (length u) = Some c) by (rewrite E', nth_error_app2, Nat.sub_diag by apply Nat.le_refl; reflexivity).
    rewrite nth_error_app1 in X by exact L. now apply nth_error_In in X.
  - apply cut_none. now rewrite occurs_single.
Qed.
Lemma split_inv c s a b : split s [c] = Ok [a; b] -> s = a ++ c :: b /\ ~ In c a /\ ~ In c b.
Proof.
  intros E. destruct (C28_round_trip s [c] [a; b] ltac:(discriminate) E) as (J & _ & P). split.
  - rewrite <- J, (proj2 (C28_collapse [a; b] [c])). reflexivity.
  - split; rewrite <- occurs_single; apply P; cbn; auto.
Qed.
Lemma same_true (a b : list ascii) : same_str a b = true <-> a = b.
Proof. unfold same_str. destruct (list_eq_dec ascii_dec a b); split; congruence. Qed.

Lemma small_iff c d : small c d <-> d = lower c.
Proof.
  unfold small, lower. destruct (Nat.leb_spec 65 (nat_of_ascii c)), (Nat.leb_spec (nat_of_ascii c) 90); cbn [andb]; split; intros H1.
  all: try (destruct H1 as [(A & B)|(A & ->)]; [try lia|try lia; reflexivity]).
  all: try (right; split; [lia|exact H1]).
  - rewrite <- B. symmetry. apply ascii_nat_embedding.
  - subst d. left. split; [lia|]. apply nat_ascii_embedding. lia.
Qed.
Lemma small_lower nm low : Forall2 small nm low -> map lower nm = low.
Proof. induction 1 as [|c d nm low H F IH]; [reflexivity|]. cbn. apply small_iff in H. now rewrite <- H, IH. Qed.
Lemma small_map nm : Forall2 small nm (map lower nm).
Proof. induction nm as [|c nm IH]; constructor; [now apply small_iff|exact IH]. Qed.

Section Wcs.
Variable V : Type.
Variable parse : list ascii -> option V.
Variable parseu : list ascii -> option N.
Notation written := (written V parse parseu).
Notation read_param := (read_param V parse parseu).

Lemma pair_ok {A} (f : list ascii -> option A) v x y : pair f v x y -> pair_of f v = Ok (Some (x, y)).
Proof. intros (a & b & -> & A1 & B1 & F & G). unfold pair_of. rewrite split_two by assumption. cbn [obind]. now rewrite F, G. Qed.
Lemma pair_cases {A} (f : list ascii -> option A) v : (exists x y, pair f v x y /\ pair_of f v = Ok (Some (x, y))) \/ (pair_of f v = Ok None /\ forall x y, ~ pair f v x y).
Proof.
  assert (K : (exists x y, pair_of f v = Ok (Some (x, y)) /\ pair f v x y) \/ pair_of f v = Ok None).
  { unfold pair_of, pair. destruct (split_ok v [","%char]) as (w & E & _); [discriminate|]. rewrite E. cbn [obind].
    destruct w as [|a [|b [|? ?]]]; auto. destruct (f a) as [x|] eqn:Fa; auto. destruct (f b) as [y|] eqn:Fb; auto.
    left. exists x, y. split; [reflexivity|]. exists a, b. destruct (split_inv _ _ _ _ E) as (S1 & S2 & S3). auto. }
  destruct K as [(x & y & K1 & K2)|K]; [left; eauto|right]. split; [exact K|]. intros x y P. apply pair_ok in P. congruence.
Qed.
Lemma called_trim nm s : called nm s <-> trim (map lower nm) blanks = Ok (lit s).
Proof.
  unfold called. split; [intros (low & L & S); rewrite (small_lower _ _ L); now apply trim_eq|]. intros E. exists (map lower nm). split; [apply small_map|].
  destruct (trim_stripped (map lower nm)) as (m & E' & S). rewrite E in E'. injection E' as <-. exact S.
Qed.
Lemma read_param_ok p t s : written t s -> read_param p t = Ok (Some (apply V p s)).
Proof.
  intros (nm & val & -> & N1 & N2 & H). unfold WcshModel.read_param. rewrite split_two by assumption. cbn [obind].
  destruct s; destruct H as (C & H); apply called_trim in C; rewrite C; cbn [obind].
  - replace (same_str (lit "pixel_scale") (lit "pixel_scale")) with true by reflexivity. now rewrite H.
  - replace (same_str (lit "pixel_ref") (lit "pixel_scale")) with false by reflexivity.
    replace (same_str (lit "pixel_ref") (lit "pixel_ref")) with true by reflexivity. rewrite (pair_ok _ _ _ _ H). reflexivity.
  - replace (same_str (lit "sky_ref") (lit "pixel_scale")) with false by reflexivity.
    replace (same_str (lit "sky_ref") (lit "pixel_ref")) with false by reflexivity.
    replace (same_str (lit "sky_ref") (lit "sky_ref")) with true by reflexivity. rewrite (pair_ok _ _ _ _ H). reflexivity.
  - replace (same_str (lit "dims") (lit "pixel_scale")) with false by reflexivity.
    replace (same_str (lit "dims") (lit "pixel_ref")) with false by reflexivity.
    replace (same_str (lit "dims") (lit "sky_ref")) with false by reflexivity.
    replace (same_str (lit "dims") (lit "dims")) with true by reflexivity. rewrite (pair_ok _ _ _ _ H). reflexivity.
Qed.
Lemma read_param_cases p t : (exists s, written t s /\ read_param p t = Ok (Some (apply V p s))) \/ (read_param p t = Ok None /\ forall s, ~ written t s).
Proof.
  assert (K : (exists s, written t s) \/ read_param p t = Ok None).
  { unfold WcshModel.read_param. destruct (split_ok t [":"%char]) as (w & E & _); [discriminate|]. rewrite E. cbn [obind].
    destruct w as [|nm [|val [|? ?]]]; auto. destruct (split_inv _ _ _ _ E) as (-> & S2 & S3).
    destruct (trim_stripped (map lower nm)) as (m & E' & _). rewrite E'. cbn [obind].
    destruct (same_str m (lit "pixel_scale")) eqn:Q1.
    { apply same_true in Q1. subst m. destruct (parse val) as [x|] eqn:P; [|auto]. left. exists (Scale V x), nm, val. repeat split; auto. now apply called_trim. }
    destruct (same_str m (lit "pixel_ref")) eqn:Q2.
    { apply same_true in Q2. subst m. destruct (pair_cases parse val) as [(x & y & P & _)|(P & _)]; [|rewrite P; auto]. left. exists (PixelRef V x y), nm, val. repeat split; auto. now apply called_trim. }
    destruct (same_str m (lit "sky_ref")) eqn:Q3.
    { apply same_true in Q3. subst m. destruct (pair_cases parse val) as [(x & y & P & _)|(P & _)]; [|rewrite P; auto]. left. exists (SkyRef V x y), nm, val. repeat split; auto. now apply called_trim. }
    destruct (same_str m (lit "dims")) eqn:Q4.
    { apply same_true in Q4. subst m. destruct (pair_cases parseu val) as [(x & y & P & _)|(P & _)]; [|rewrite P; auto]. left. exists (Dims V x y), nm, val. repeat split; auto. now apply called_trim. }
    auto. }
  destruct K as [(s & W)|K]; [left; exists s; split; [exact W|now apply read_param_ok]|right]. split; [exact K|]. intros s W. apply (read_param_ok p) in W. congruence.
Qed.
Lemma read_params_ok l ss : Forall2 written l ss -> forall p, read_params V parse parseu p l = Ok (Some (fold_left (apply V) ss p)).
Proof. induction 1 as [|t s l ss W F IH]; intros p; [reflexivity|]. cbn [read_params fold_left]. rewrite (read_param_ok p t s W). cbn [obind]. apply IH. Qed.
Lemma read_params_bad l t : In t l -> (forall s, ~ written t s) -> forall p, read_params V parse parseu p l = Ok None.
Proof.
  induction l as [|u l IH]; intros I N p; [destruct I|]. cbn [read_params]. destruct (read_param_cases p u) as [(s & W & E)|(E & _)]; rewrite E; cbn [obind]; [|reflexivity].
  destruct I as [->|I]; [destruct (N s W)|now apply IH].
Qed.
End Wcs.
