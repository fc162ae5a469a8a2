From Coq Require Import Ascii String QArith Qpower Qround Qabs Lqa.
From Verif Require Import Base StrModel StrSpec StrProofs StrProofs2 NumModel NumSpec NumProofs TimeModel TimeSpec TimeProofs RealModel RealSpec RealProofs.
Local Open Scope Z_scope.

(* --- zeros at the end ------------------------------------------------------------------ *)
Lemma strip_spec : forall f, exists z, f = strip_zeros f ++ repeat "0"%char z /\ forall g, strip_zeros f <> g ++ ["0"%char].
Proof.
  induction f as [|c f (z & E & N)]; cbn [strip_zeros].
  - exists 0%nat. split; auto. intros [|? g]; discriminate.
  - destruct (strip_zeros f) as [|x u] eqn:S0.
    + destruct (Ascii.eqb_spec c "0"%char) as [->|Nc].
      * exists (S z). split; [cbn; now f_equal|]. intros [|? g]; discriminate.
      * exists z. split; [cbn; now f_equal|]. intros [|? [|? g]] X; inversion X. subst. now apply Nc.
    + exists z. split; [rewrite E; reflexivity|]. intros [|y g] X; inversion X. subst. now apply (N g).
Qed.
Lemma value_zeros : forall z, value (repeat "0"%char z) = 0.
Proof.
  induction z as [|z IH]; auto.
Qed.
Lemma zeros_digits : forall z, all_digits (repeat "0"%char z).
Proof. intros z x I. apply repeat_spec in I. now subst x. Qed.
Definition frac (f : list ascii) : Q := (inject_Z (value f) / 10 ^ Z.of_nat (List.length f))%Q.
Lemma frac_zeros : forall f z, (frac (f ++ repeat "0"%char z) == frac f)%Q.
Proof.
  intros f z. unfold frac. rewrite value_app, value_zeros, app_length, repeat_length, Z.add_0_r, inject_Z_mult, Nat2Z.inj_add, p10_plus.
  rewrite <- p10_Z by lia. field. split; apply p10_nz.
Qed.
Lemma with_point_plain : forall d f, d <> [] -> all_digits d -> shortest d -> all_digits f ->
  plain_number (with_point d f) (inject_Z (value d) + frac f)%Q.
Proof.
  intros d f N A Sh F. exists d, (value d). split; [apply writes_iff; auto|]. split; auto. unfold with_point.
  destruct (strip_spec f) as (z & E & Nz). destruct (strip_zeros f) as [|c u] eqn:S0.
  - left. split; auto. rewrite E. cbn [app]. unfold frac. rewrite value_zeros. cbn [inject_Z]. unfold Qdiv. ring.
  - right. exists (c :: u), (value (c :: u)). split; auto. split; [|split; auto].
    + apply writes_iff. split; [discriminate|]. split; auto. rewrite E in F. now apply all_app in F.
    + fold (frac (c :: u)). rewrite E, frac_zeros. reflexivity.
Qed.
(* --- writing ------------------------------------------------------------------------------- *)
Lemma six_digits : forall m, 100000 <= m < 1000000 -> List.length (to_string m) = 6%nat.
Proof.
  intros m H. pose proof (ndigits_spec m ltac:(lia)) as [A B]. unfold ndigits in *. set (l := List.length (to_string m)) in *.
  clearbody l. assert (l = 6 \/ l <= 5 \/ 7 <= l)%nat as [E|[L|L]] by lia; auto.
  - assert (10 ^ Z.of_nat l <= 10 ^ 5) by (apply Z.pow_le_mono_r; lia). change (10 ^ 5) with 100000 in *. lia.
  - assert (10 ^ 6 <= 10 ^ (Z.of_nat l - 1)) by (apply Z.pow_le_mono_r; lia). change (10 ^ 6) with 1000000 in *. lia.
Qed.
Lemma split_digits : forall d k, all_digits d -> (k <= List.length d)%nat ->
  (inject_Z (value d) == (inject_Z (value (firstn k d)) + frac (skipn k d)) * 10 ^ Z.of_nat (List.length d - k))%Q /\
  all_digits (firstn k d) /\ all_digits (skipn k d).
Proof.
  intros d k A K. rewrite <- (firstn_skipn k d) in A. apply all_app in A. destruct A as [A1 A2]. split; auto.
  rewrite <- (firstn_skipn k d) at 1. rewrite value_app, inject_Z_plus, inject_Z_mult, <- p10_Z by lia. unfold frac.
  rewrite skipn_length. field. apply p10_nz.
Qed.
Lemma fixed_text : forall m e, 100000 <= m < 1000000 -> 0 <= e < 6 ->
  plain_number (with_point (firstn (Z.to_nat (e + 1)) (to_string m)) (skipn (Z.to_nat (e + 1)) (to_string m))) (value6 (m, e)).
Proof.
  intros m e Hm He. destruct (to_string_digits m) as (N & A & V & Sh); [lia|]. pose proof (six_digits m Hm) as L.
  set (d := to_string m) in *. clearbody d. set (k := Z.to_nat (e + 1)).
  destruct (split_digits d k A) as (E & A1 & A2); [lia|].
  assert (X : (value6 (m, e) == inject_Z (value (firstn k d)) + frac (skipn k d))%Q).
  { unfold value6. cbn [fst snd]. rewrite <- V, E, <- Qmult_assoc, <- p10_plus. rewrite L.
    replace (Z.of_nat (6 - k) + (e - 5)) with 0 by lia. cbn [Qpower]. ring. }
  destruct (with_point_plain (firstn k d) (skipn k d)) as (d' & n & W & S' & R); auto.
  - destruct d; [discriminate L|]. destruct k eqn:K; [lia|]. discriminate.
  - destruct Sh as [E0|(c & r & E0 & Nc)]; rewrite E0 in *; [discriminate L|]. right. destruct k eqn:K; [lia|].
    cbn [firstn]. eauto.
  - exists d', n. split; auto. split; auto. destruct R as [[E1 E2]|(f & kk & E1 & W1 & Z1 & E2)].
    + left. split; auto. now rewrite X.
    + right. exists f, kk. rewrite X. auto.
Qed.
Lemma small_text : forall m e, 100000 <= m < 1000000 -> -4 <= e < 0 ->
  plain_number (with_point ["0"%char] (repeat "0"%char (Z.to_nat (- e - 1)) ++ to_string m)) (value6 (m, e)).
Proof.
  intros m e Hm He. destruct (to_string_digits m) as (N & A & V & Sh); [lia|]. pose proof (six_digits m Hm) as L.
  set (d := to_string m) in *. clearbody d. set (z := Z.to_nat (- e - 1)).
  assert (X : (value6 (m, e) == inject_Z (value ["0"%char]) + frac (repeat "0"%char z ++ d))%Q).
  { unfold value6, frac. cbn [fst snd]. rewrite value_app, value_zeros, value_one, V, app_length, repeat_length, L.
    change (digit_of "0"%char) with 0. rewrite Z.mul_0_l, Z.add_0_l.
    replace (e - 5) with (- Z.of_nat (z + 6)) by lia. rewrite Qpower_opp. unfold Qdiv. cbn [inject_Z]. ring. }
  destruct (with_point_plain ["0"%char] (repeat "0"%char z ++ d)) as (d' & n & W & S' & R); auto.
  - discriminate.
  - intros x [<-|[]]. reflexivity.
  - now left.
  - apply all_app. split; [apply zeros_digits|auto].
  - exists d', n. split; auto. split; auto. destruct R as [[E1 E2]|(f & kk & E1 & W1 & Z1 & E2)].
    + left. split; auto. now rewrite X.
    + right. exists f, kk. rewrite X. auto.
Qed.
Lemma plain_mantissa : forall s v, plain_number s v -> mantissa s v.
Proof.
  intros s v (d & n & W & _ & [[-> E]|(f & k & -> & Wf & _ & E)]).
  - left. exists n. auto.
  - right. exists d, f, n, k. split; auto. split; [apply writes_iff in W; destruct W as [W _]; destruct d; [tauto|discriminate]|].
    split; [now right|]. split; [now right|auto].
Qed.
Lemma exponent_digits : forall k, 0 <= k -> exists d, align_right (to_string k) 2 "0"%char = d /\ writes d k.
Proof.
  intros k H. destruct (Z_lt_le_dec k 100) as [L|G].
  - destruct (pad2_wide k [] ltac:(lia)) as (d & W & _ & E). rewrite !app_nil_r in E. unfold pad in E. exists d. auto.
  - destruct (to_string_digits k H) as (N & A & V & Sh). exists (to_string k). split; [|apply writes_iff; auto].
    unfold align_right. destruct (Nat.ltb_spec (List.length (to_string k)) 2) as [X|X]; auto.
    exfalso. pose proof (ndigits_spec k ltac:(lia)) as [_ B]. unfold ndigits in B.
    assert (10 ^ Z.of_nat (List.length (to_string k)) <= 10 ^ 1) by (apply Z.pow_le_mono_r; lia). change (10 ^ 1) with 10 in *. lia.
Qed.
Lemma exponent_power : forall e, power_text (exponent_text e) e.
Proof.
  intros e. right. destruct (exponent_digits (Z.abs e) ltac:(lia)) as (d & E & W). unfold exponent_text. rewrite E.
  destruct (Z.ltb_spec e 0).
  - exists "e"%char, ["-"%char], (-1), d, (Z.abs e). repeat split; auto; [right; right; auto|lia].
  - exists "e"%char, ["+"%char], 1, d, (Z.abs e). repeat split; auto; [right; left; auto|lia].
Qed.
Lemma positive_plain : forall a, (0 < a)%Q -> -4 <= snd (rounded6 a) < 6 -> plain_number (positive_text a) (value6 (rounded6 a)).
Proof.
  intros a H R. unfold positive_text. destruct (rounded6_val a H) as (_ & M & _). destruct (rounded6 a) as [m e]. cbn [fst snd] in *.
  rewrite (proj2 (Z.leb_le (-4) e)), (proj2 (Z.ltb_lt e 6)) by lia. cbn [andb].
  destruct (Z.leb_spec 0 e); [apply fixed_text|apply small_text]; lia.
Qed.
Lemma positive_number : forall a, (0 < a)%Q -> exists m w p k, positive_text a = m ++ p /\ mantissa m w /\ power_text p k /\
  (w * 10 ^ k == value6 (rounded6 a))%Q.
Proof.
  intros a H. destruct (Z_le_gt_dec (-4) (snd (rounded6 a))) as [L|G]; [destruct (Z_lt_le_dec (snd (rounded6 a)) 6) as [L6|G6]|].
  { exists (positive_text a), (value6 (rounded6 a)), [], 0. rewrite app_nil_r. split; auto. split; [now apply plain_mantissa, positive_plain|].
    split; [now left|]. cbn [Qpower]. ring. }
  all: unfold positive_text; destruct (rounded6_val a H) as (_ & M & _); destruct (rounded6 a) as [m e]; cbn [fst snd] in *;
    pose proof (fixed_text m 0 M ltac:(lia)) as F; change (Z.to_nat (0 + 1)) with 1%nat in F.
  1: rewrite (proj2 (Z.ltb_ge e 6)) by lia. 2: rewrite (proj2 (Z.leb_gt (-4) e)) by lia.
  all: rewrite ?Bool.andb_false_r; cbn [andb]; eexists _, _, (exponent_text e), e; split; [reflexivity|]; split; [apply plain_mantissa, F|];
    split; [apply exponent_power|]; unfold value6; cbn [fst snd]; rewrite <- Qmult_assoc, <- p10_plus;
    replace (0 - 5 + e) with (e - 5) by lia; reflexivity.
Qed.
