(* C124: proofs about stacks and their bootstrap. *)
From Coq Require Import QArith Qround Qfield Lqa Lia.
From Verif Require Import Base BootModel BootSpec.
From Verif Require RandintModel RandintProofs OrderModel ReduceModel.
Local Open Scope nat_scope.

Lemma omapl_map {A B} (f : A -> outcome B) (g : A -> B) l : (forall x, In x l -> f x = Ok (g x)) -> omapl f l = Ok (map g l).
Proof. induction l as [|a l IH]; intros H; [reflexivity|]. cbn [omapl map]. rewrite (H a) by (left; reflexivity). cbn [obind]. rewrite IH by (intros; apply H; right; assumption). reflexivity. Qed.
Lemma omapl_map_arg {A B C} (f : B -> outcome C) (h : A -> B) l : omapl f (map h l) = omapl (fun a => f (h a)) l.
Proof. induction l as [|a l IH]; [reflexivity|]. cbn [omapl map]. rewrite IH. reflexivity. Qed.
Lemma omapl_fail {A B} (f : A -> outcome B) : forall l, (forall x, In x l -> (exists y, f x = Ok y) \/ f x = CheckFail) -> (exists x, In x l /\ f x = CheckFail) -> omapl f l = CheckFail.
Proof.
  induction l as [|a l IH]; intros H (x & I & E); [destruct I|]. cbn [omapl]. destruct (H a (or_introl eq_refl)) as [[y Ey]|Ey]; rewrite Ey; [|reflexivity]. cbn [obind].
  rewrite IH; [reflexivity|intros z Iz; apply H; right; exact Iz|]. destruct I as [->|I]; [congruence|]. exists x. split; assumption.
Qed.

Section Draw.
Variables (rnd : Q -> Q) (u : nat -> Q).
Hypothesis R : double_rounding rnd.
Hypothesis U : uniform u.
Variable nsrc : nat.
Hypothesis N0 : 0 < nsrc.
Hypothesis N1 : (Z.of_nat nsrc <= 2 ^ 53)%Z.
Let n := inject_Z (Z.of_nat nsrc).
Lemma product_bounds i : (0 <= rnd (u i * n) /\ rnd (u i * n) < n)%Q.
Proof.
  destruct R as (_ & _ & _ & E). destruct (U i) as [A B].
  assert (P : (0 < n)%Q) by (unfold n; change 0%Q with (inject_Z 0); rewrite <- Zlt_Qlt; lia).
  destruct (E (u i * n)%Q ltac:(nra)) as [L H]. set (e := (1 # 2 ^ 53)%Q) in *. assert (E0 : (0 < e)%Q) by reflexivity. assert (E1 : (e < 1)%Q) by reflexivity. clearbody e n.
  set (a := u i) in *. clearbody a. clear E. split.
  - assert (0 <= a * n)%Q by nra. nra.
  - assert (X : (a * n <= (1 - e) * n)%Q) by nra. assert (Y : (a * n * (1 + e) <= (1 - e) * n * (1 + e))%Q) by nra. assert (Z : ((1 - e) * n * (1 + e) == n - e * e * n)%Q) by ring. assert (0 < e * e)%Q by nra. assert (0 < e * e * n)%Q by nra. lra.
Qed.
Lemma source_bound i : source rnd u nsrc i < nsrc /\ Z.of_nat (source rnd u nsrc i) = Qfloor (rnd (u i * n)%Q).
Proof.
  destruct (product_bounds i) as [A B]. unfold source. fold n.
  assert (F0 : (0 <= Qfloor (rnd (u i * n)))%Z) by (change 0%Z with (Qfloor 0); apply Qfloor_resp_le; exact A).
  assert (F1 : (Qfloor (rnd (u i * n)) < Z.of_nat nsrc)%Z) by (rewrite Zlt_Qlt; eapply Qle_lt_trans; [apply Qfloor_le|exact B]). split; [lia|]. apply Z2Nat.id. exact F0.
Qed.
Lemma one_ok i : RandintModel.randomi_one rnd RandintModel.uint64 0 (Z.of_nat nsrc) (u i) = Ok (Z.of_nat (source rnd u nsrc i)).
Proof.
  destruct R as (C & I & D & _). destruct (source_bound i) as [A B]. destruct (product_bounds i) as [P0 P1]. unfold RandintModel.randomi_one, RandintModel.to_int.
  assert (E : (rnd (rnd (u i * rnd (inject_Z (Z.of_nat nsrc))) + rnd (inject_Z 0)) == rnd (u i * n))%Q).
  { rewrite <- (D (u i * n)%Q). apply C. rewrite (I 0%Z ltac:(cbn; lia)). rewrite (C (u i * rnd (inject_Z (Z.of_nat nsrc)))%Q (u i * n)%Q); [change (inject_Z 0) with 0%Q; ring|]. rewrite (I (Z.of_nat nsrc)) by lia. reflexivity. }
  rewrite (RandintProofs.trunc_comp _ _ E), RandintProofs.trunc_nonneg by exact P0. rewrite <- B. unfold RandintModel.fits. cbn [RandintModel.uint64 RandintModel.imin RandintModel.imax].
  destruct (Z.leb_spec 0 (Z.of_nat (source rnd u nsrc i))); [|lia]. destruct (Z.leb_spec (Z.of_nat (source rnd u nsrc i)) (two64 - 1)); [reflexivity|]. unfold two64 in *. lia.
Qed.
Lemma draw_ok nsel pos : draw rnd u nsrc nsel pos = Ok (map (fun i => Z.of_nat (source rnd u nsrc i)) (seq pos nsel)).
Proof.
  unfold draw, RandintModel.randomi. assert (W : wrap64 (Z.of_nat nsrc - 1) = (Z.of_nat nsrc - 1)%Z) by (unfold wrap64; apply Z.mod_small; unfold two64; lia). rewrite W.
  replace (Z.of_nat nsrc - 1 + 1)%Z with (Z.of_nat nsrc) by lia.
  assert (Ar : RandintModel.arith RandintModel.uint64 (Z.of_nat nsrc) = Ok (Z.of_nat nsrc)).
  { unfold RandintModel.arith, RandintModel.fits. cbn [RandintModel.uint64 RandintModel.imin RandintModel.imax]. destruct (Z.leb_spec 0 (Z.of_nat nsrc)); [|lia]. destruct (Z.leb_spec (Z.of_nat nsrc) (two64 - 1)); [reflexivity|]. unfold two64 in *. lia. }
  rewrite Ar. cbn [obind]. replace (Z.of_nat nsrc - 0)%Z with (Z.of_nat nsrc) by lia. rewrite Ar. cbn [obind]. rewrite omapl_map_arg. apply omapl_map. intros. apply one_ok.
Qed.
End Draw.

Definition fit {A} (c : cube A) : Prop := length (dat c) = n0 c * (n1 c * n2 c).
Definition image {A} (c : cube A) (i : nat) : list A := firstn (n1 c * n2 c) (skipn (i * (n1 c * n2 c)) (dat c)).
Lemma omapl_slice {A} (l : list A) a n : a + n <= length l -> omapl (fun p => oget l (a + p)) (seq 0 n) = Ok (firstn n (skipn a l)).
Proof.
  revert a. induction n as [|n IH]; intros a H; [reflexivity|]. cbn [seq omapl]. rewrite <- seq_shift, omapl_map_arg.
  destruct (skipn a l) as [|x t] eqn:E; [assert (L : length (skipn a l) = length l - a) by apply skipn_length; rewrite E in L; cbn in L; lia|].
  assert (X : nth_error l a = Some x) by (rewrite <- (firstn_skipn a l), E, nth_error_app2; rewrite firstn_length; [replace (a - Nat.min a (length l)) with 0 by lia; reflexivity|lia]).
  unfold oget at 1. rewrite Nat.add_0_r, X. cbn [obind]. assert (T : t = skipn (S a) l) by (replace (S a) with (1 + a) by lia; clear - E; revert a E; induction l as [|y l IHl]; intros [|a] E; try discriminate; cbn in *; [congruence|apply IHl; exact E]).
  cbn [firstn]. specialize (IH (S a) ltac:(lia)). rewrite <- T in IH.
  assert (Ex : forall m, omapl (fun p => oget l (a + S p)) m = omapl (fun p => oget l (S a + p)) m) by (intros m; induction m as [|y m IHm]; [reflexivity|]; cbn [omapl]; rewrite IHm; replace (a + S y) with (S a + y) by lia; reflexivity).
  rewrite Ex, IH. reflexivity.
Qed.
Lemma take_image_ok {A} (c : cube A) i : fit c -> i < n0 c -> take_image c (Z.of_nat i) = Ok (image c i).
Proof.
  intros F H. unfold take_image. destruct (Z.leb_spec 0 (Z.of_nat i)); [|lia]. destruct (Z.ltb_spec (Z.of_nat i) (Z.of_nat (n0 c))); [|lia]. cbn [andb check obind]. rewrite Nat2Z.id. apply omapl_slice. unfold fit in F. rewrite F. nia.
Qed.
Lemma take_image_fail {A} (c : cube A) i : n0 c <= i -> take_image c (Z.of_nat i) = CheckFail.
Proof. intros H. unfold take_image. destruct (Z.ltb_spec (Z.of_nat i) (Z.of_nat (n0 c))); [lia|]. rewrite Bool.andb_false_r. reflexivity. Qed.
Lemma image_length {A} (c : cube A) i : fit c -> i < n0 c -> length (image c i) = n1 c * n2 c.
Proof. intros F H. unfold image. rewrite firstn_length, skipn_length. unfold fit in F. rewrite F. nia. Qed.
Definition chosen {A} (c : cube A) (ids : list nat) : cube A := mk_cube (length ids) (n1 c) (n2 c) (concat (map (image c) ids)).
Lemma choose_ok {A} (c : cube A) ids : fit c -> Forall (fun i => i < n0 c) ids -> choose c (map Z.of_nat ids) = Ok (chosen c ids).
Proof.
  intros F H. unfold choose. rewrite omapl_map_arg, (omapl_map _ (image c)).
  - cbn [obind]. rewrite map_length. reflexivity.
  - intros x I. rewrite Forall_forall in H. apply take_image_ok; auto.
Qed.
Lemma concat_length {A} (l : list (list A)) n : Forall (fun x => length x = n) l -> length (concat l) = length l * n.
Proof. induction 1 as [|x l H _ IH]; [reflexivity|]. cbn. rewrite app_length, IH, H. reflexivity. Qed.
Lemma images_length {A} (c : cube A) ids : fit c -> Forall (fun i => i < n0 c) ids -> Forall (fun x => length x = n1 c * n2 c) (map (image c) ids).
Proof. intros F H. induction H; cbn; constructor; auto. apply image_length; assumption. Qed.
Lemma chosen_fit {A} (c : cube A) ids : fit c -> Forall (fun i => i < n0 c) ids -> fit (chosen c ids).
Proof. intros F H. unfold fit, chosen. cbn [dat n0 n1 n2]. rewrite (concat_length _ _ (images_length c ids F H)), map_length. reflexivity. Qed.
Lemma nth_error_slice {A} (l : list A) a n p : p < n -> nth_error (firstn n (skipn a l)) p = nth_error l (a + p).
Proof.
  intros H. revert l n p H. induction a as [|a IH]; intros l n p H; [cbn [skipn]|destruct l; cbn [skipn]; [rewrite firstn_nil; destruct p; reflexivity|apply IH; exact H]].
  revert n p H. induction l as [|x l IHl]; intros [|n] [|p] H; try lia; try reflexivity. cbn. apply IHl. lia.
Qed.
Lemma nth_concat {A} (n : nat) : forall (l : list (list A)) k p x, Forall (fun x => length x = n) l -> nth_error l k = Some x -> p < n -> nth_error (concat l) (k * n + p) = nth_error x p.
Proof.
  intros l k. revert l. induction k as [|k IH]; intros l p x F H P; (destruct l as [|y l]; [discriminate|]); inversion F as [|? ? L F']; subst; cbn [nth_error] in H; cbn [concat].
  - injection H as ->. cbn [Nat.mul Nat.add]. apply nth_error_app1. exact P.
  - rewrite nth_error_app2 by lia. rewrite <- (IH l p x F' H P). f_equal. lia.
Qed.
Lemma chosen_pixel {A} (c : cube A) ids k i p : fit c -> Forall (fun i => i < n0 c) ids -> nth_error ids k = Some i -> pixel (n1 c * n2 c) (dat (chosen c ids)) k p = pixel (n1 c * n2 c) (dat c) i p.
Proof.
  intros F H K. unfold pixel. destruct (Nat.ltb_spec p (n1 c * n2 c)) as [L|L]; [|reflexivity]. cbn [chosen dat].
  rewrite (nth_concat (n1 c * n2 c) (map (image c) ids) k p (image c i) (images_length c ids F H)); [|rewrite nth_error_map, K; reflexivity|exact L].
  unfold image. apply nth_error_slice. exact L.
Qed.
Lemma values_chosen {A} (c : cube A) ids p : fit c -> Forall (fun i => i < n0 c) ids -> values (n1 c * n2 c) (dat (chosen c ids)) (seq 0 (length ids)) p = values (n1 c * n2 c) (dat c) ids p.
Proof.
  intros F H. assert (G : forall t k, (forall j i, nth_error t j = Some i -> nth_error ids (k + j) = Some i) -> values (n1 c * n2 c) (dat (chosen c ids)) (seq k (length t)) p = values (n1 c * n2 c) (dat c) t p).
  { induction t as [|i t IH]; intros k E; [reflexivity|]. cbn [length seq values]. rewrite (chosen_pixel c ids k i p F H); [|rewrite <- (E 0 i eq_refl); f_equal; lia].
    rewrite (IH (S k)); [reflexivity|]. intros j x J. rewrite <- (E (S j) x J). f_equal. lia. }
  apply (G ids 0). intros j i J. exact J.
Qed.
Lemma along_ok {A B} (f : list A -> outcome B) (c : cube A) : fit c ->
  along f c = (l <- omapl (fun p => f (values (n1 c * n2 c) (dat c) (seq 0 (n0 c)) p)) (seq 0 (n1 c * n2 c)) ;; Ok (mk_img (n1 c) (n2 c) l)).
Proof.
  intros F. unfold along. set (P := n1 c * n2 c).
  assert (S1 : forall p m k, p < P -> k + m <= n0 c -> omapl (fun i => oget (dat c) (i * P + p)) (seq k m) = Ok (values P (dat c) (seq k m) p)).
  { intros p m. induction m as [|m IH]; intros k L H; [reflexivity|]. cbn [seq omapl values]. unfold oget at 1, pixel. destruct (Nat.ltb_spec p P); [|lia].
    assert (X : nth_error (dat c) (k * P + p) <> None) by (apply nth_error_Some; unfold fit in F; fold P in F; rewrite F; nia). destruct (nth_error (dat c) (k * P + p)) as [x|]; [|contradiction]. cbn [obind]. rewrite IH by lia. reflexivity. }
  assert (Ex : forall l, (forall p, In p l -> p < P) -> omapl (fun p => s <- omapl (fun i => oget (dat c) (i * P + p)) (seq 0 (n0 c)) ;; f s) l = omapl (fun p => f (values P (dat c) (seq 0 (n0 c)) p)) l).
  { induction l as [|p l IH]; intros H; [reflexivity|]. cbn [omapl]. rewrite S1 by (try lia; apply H; left; reflexivity). cbn [obind]. rewrite IH by (intros; apply H; right; assumption). reflexivity. }
  rewrite Ex; [reflexivity|]. intros p I. apply in_seq in I. lia.
Qed.
Lemma sum_total l : (sum l == qtotal l)%Q.
Proof.
  unfold sum. assert (G : forall l a, (fold_left Qplus l a == a + qtotal l)%Q) by (clear; induction l as [|x l IH]; intros a; cbn [fold_left qtotal]; [ring|rewrite IH; ring]). rewrite G. ring.
Qed.
Lemma values_length {A} (c : cube A) ids p : fit c -> Forall (fun i => i < n0 c) ids -> p < n1 c * n2 c -> length (values (n1 c * n2 c) (dat c) ids p) = length ids.
Proof.
  intros F H L. induction H as [|i ids Hi _ IH]; [reflexivity|]. cbn [values]. unfold pixel at 1. destruct (Nat.ltb_spec p (n1 c * n2 c)); [|lia].
  assert (X : nth_error (dat c) (i * (n1 c * n2 c) + p) <> None) by (apply nth_error_Some; unfold fit in F; rewrite F; nia). destruct (nth_error _ _); [|contradiction]. cbn. rewrite IH. reflexivity.
Qed.
