(* C125: unit tests. *)
From Coq Require Import QArith Qabs Lqa Lia.
From Verif Require Import Base UtestModel UtestSpec.
Local Open Scope nat_scope.

Definition to_arg {A} (x : A + list nat * list A) : arg A := match x with inl a => One a | inr (d, v) => Vec d v end.
Lemma and_all l : fold_left andb l true = true <-> Forall (fun b => b = true) l.
Proof.
  assert (G : forall l, fold_left andb l false = false) by (clear; induction l; cbn; auto).
  induction l as [|b l IH]; cbn; [split; [constructor|reflexivity]|]. destruct b; cbn; [rewrite IH; split; [constructor; auto|intros H; inversion H; assumption]|]. rewrite G. split; [discriminate|]. intros H. inversion H. congruence.
Qed.
Lemma compare_ok {A} (same : A -> A -> bool) x y : comparable x y -> exists r, is_same same (to_arg x) (to_arg y) = Ok r /\ (reduce_and r = true <-> Forall (fun ab => same (fst ab) (snd ab) = true) (pairs x y)).
Proof.
  assert (G : forall B (f : B -> bool) l, fold_left andb (map f l) true = true <-> Forall (fun b => f b = true) l).
  { intros B f l. rewrite and_all. induction l as [|b l IH]; cbn; [split; constructor|]. split; intros H; inversion H; subst; constructor; auto; apply IH; assumption. }
  intros C. destruct x as [a|[d v]], y as [b|[e w]]; cbn [to_arg is_same pairs].
  - eexists. split; [reflexivity|]. cbn. split; [intros; repeat constructor; assumption|intros H; inversion H; assumption].
  - eexists. split; [reflexivity|]. cbn [reduce_and]. rewrite G. clear. induction w as [|b w IH]; cbn; [split; constructor|]. split; intros H; inversion H; subst; constructor; auto; apply IH; assumption.
  - eexists. split; [reflexivity|]. cbn [reduce_and]. rewrite G. clear. induction v as [|c v IH]; cbn; [split; constructor|]. split; intros H; inversion H; subst; constructor; auto; apply IH; assumption.
  - destruct C as [-> _]. unfold dims_eq. destruct (list_eq_dec Nat.eq_dec e e); [|congruence]. cbn [check obind]. eexists. split; [reflexivity|]. cbn [reduce_and]. apply G.
Qed.

(* Two numbers are the same when their difference is at most the epsilon of float; infinities are the same when they
   have the same sign, and an infinity and a number are not. *)
Theorem C125_float : forall rnd a b n m,
  (same_float rnd (Fin a) (Fin b) = true <-> (Qabs (rnd (a - b)) <= 1 # 8388608)%Q) /\
  (same_float rnd (Inf n) (Inf m) = true <-> n = m) /\
  same_float rnd (Fin a) (Inf n) = false /\ same_float rnd (Inf n) (Fin a) = false /\ same_float rnd Nan Nan = true.
Proof.
  intros. split; [unfold same_float; cbn [fsub fabs fle is_nan]; rewrite !Bool.orb_false_r, Qle_bool_iff; reflexivity|]. split; [destruct n, m; cbn; split; congruence|]. split; [destruct n; reflexivity|]. split; [destruct n; reflexivity|reflexivity].
Qed.
Print Assumptions C125_float.
(* Integers and the like are compared exactly. *)
Theorem C125_exact : forall a b, same_exact a b = true <-> a = b.
Proof. intros. apply Z.eqb_eq. Qed.
Print Assumptions C125_exact.
(* Finding: NaN is the same as any number or infinity, as the difference is NaN: a test with a NaN never fails. *)
Theorem C125_nan_refuted : forall rnd x, same_float rnd Nan x = true /\ same_float rnd x Nan = true.
Proof. intros rnd x. destruct x; split; reflexivity. Qed.
Print Assumptions C125_nan_refuted.
(* Finding: the tolerance is absolute, so that all numbers up to half of it are the same, whatever their ratio. *)
Theorem C125_small_refuted : forall a b, (Qabs a <= 1 # 16777216)%Q -> (Qabs b <= 1 # 16777216)%Q -> same_float (fun q => q) (Fin a) (Fin b) = true.
Proof. intros a b A B. apply C125_float; [exact true|exact true|]. apply Qabs_Qle_condition in A. apply Qabs_Qle_condition in B. apply Qabs_Qle_condition. split; lra. Qed.
Print Assumptions C125_small_refuted.
(* Vectors are the same when all elements are; a single value is compared with every element. *)
Theorem C125_vectors : forall A (same : A -> A -> bool) x y, comparable x y ->
  exists r, is_same same (to_arg x) (to_arg y) = Ok r /\ (reduce_and r = true <-> Forall (fun ab => same (fst ab) (snd ab) = true) (pairs x y)).
Proof. intros. apply compare_ok. assumption. Qed.
Print Assumptions C125_vectors.
(* Finding: vectors of other dimensions abort the program instead of failing the test. *)
Theorem C125_dims_abort : forall A (same : A -> A -> bool) d e v w st, d <> e -> check_one same st (Vec d v, Vec e w) = CheckFail.
Proof. intros. unfold check_one. cbn [fst snd is_same]. unfold dims_eq. destruct (list_eq_dec Nat.eq_dec d e); [contradiction|]. reflexivity. Qed.
Print Assumptions C125_dims_abort.
(* Finding: an empty vector is the same as any single value. *)
Theorem C125_empty_refuted : forall A (same : A -> A -> bool) a d, exists r, is_same same (Vec d []) (One a) = Ok r /\ reduce_and r = true.
Proof. intros. eexists. split; reflexivity. Qed.
Print Assumptions C125_empty_refuted.
(* After any tests, tested is their number and failed the number of those that differ. *)
Theorem C125_counts : forall A (same : A -> A -> bool) ps, Forall (fun p => comparable (fst p) (snd p)) ps -> (N.of_nat (length ps) < 2 ^ 64)%N ->
  exists bad, run same (map (fun p => (to_arg (fst p), to_arg (snd p))) ps) = Ok (N.of_nat (length ps), N.of_nat (length (filter (fun b => b) bad))) /\
    Forall2 (fun p b => b = true <-> Exists (fun ab => same (fst ab) (snd ab) = false) (pairs (fst p) (snd p))) ps bad.
Proof.
  intros A same ps F L. unfold run.
  assert (Ex : forall l : list (A * A), ~ Forall (fun ab => same (fst ab) (snd ab) = true) l <-> Exists (fun ab => same (fst ab) (snd ab) = false) l).
  { induction l as [|x l IH]; [split; [intros H; destruct H; constructor|intros H; inversion H]|]. destruct (same (fst x) (snd x)) eqn:E.
    - split; intros H; [apply Exists_cons_tl; apply IH; intros X; apply H; constructor; assumption|intros X; inversion X; subst; inversion H; subst; [congruence|]; apply IH in H1; contradiction].
    - split; intros H; [apply Exists_cons_hd; exact E|intros X; inversion X; congruence]. }
  assert (G : forall ps, Forall (fun p => comparable (fst p) (snd p)) ps -> forall t f, (t + N.of_nat (length ps) < 2 ^ 64)%N -> (f <= t)%N ->
    exists bad, ofold (check_one same) (map (fun p => (to_arg (fst p), to_arg (snd p))) ps) (t, f) = Ok ((t + N.of_nat (length ps))%N, (f + N.of_nat (length (filter (fun b => b) bad)))%N) /\
      Forall2 (fun p b => b = true <-> Exists (fun ab => same (fst ab) (snd ab) = false) (pairs (fst p) (snd p))) ps bad).
  { clear ps F L. induction ps as [|p ps IH]; intros F t f L H; [exists []; cbn; rewrite !N.add_0_r; split; [reflexivity|constructor]|]. inversion F as [|? ? C F']; subst. cbn [map ofold]. unfold check_one at 1. cbn [fst snd].
    destruct (compare_ok same (fst p) (snd p) C) as (r & E & K). rewrite E. cbn [obind]. cbn [length] in L. rewrite (N.mod_small (t + 1)) by lia.
    destruct (reduce_and r) eqn:Rr; cbn [negb].
    - destruct (IH F' (t + 1)%N f ltac:(lia) ltac:(lia)) as (bad & E2 & K2). exists (false :: bad). rewrite E2. cbn [filter length]. split; [f_equal; f_equal; lia|]. constructor; [|exact K2]. rewrite <- Ex. split; [discriminate|]. intros X. destruct X. apply K. reflexivity.
    - rewrite N.mod_small by lia. destruct (IH F' (t + 1)%N (f + 1)%N ltac:(lia) ltac:(lia)) as (bad & E2 & K2). exists (true :: bad). rewrite E2. cbn [filter length]. split; [f_equal; f_equal; lia|]. constructor; [|exact K2]. rewrite <- Ex. split; [|reflexivity]. intros _ X. apply K in X. discriminate. }
  destruct (G ps F 0%N 0%N ltac:(lia) ltac:(lia)) as (bad & E & K). exists bad. rewrite E. split; [reflexivity|exact K].
Qed.
Print Assumptions C125_counts.
Example ex_run : run (same_float (fun q => q)) [(One (Fin 1), One (Fin (1 + (1 # 10000000)))); (Vec [2] [Fin 1; Fin 2], One (Fin 1)); (Vec [2] [Fin 1; Nan], Vec [2] [Fin 1; Fin 7])] = Ok (3%N, 1%N) /\
  run same_exact [(One 3, One 3); (One 3, One 4)]%Z = Ok (2%N, 1%N).
Proof. vm_compute. split; reflexivity. Qed.
