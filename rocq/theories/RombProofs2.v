(* Consequences: polynomials, reversed intervals, multiples, spikes; clipping. *)
From Coq Require Import QArith Qabs Qfield Lqa Permutation.
From Verif Require Import Base OrderModel OrderSpec ReduceModel ReduceSpec ReduceProofs2 RombModel RombSpec RombProofs.
Local Open Scope nat_scope.

(* ---- polynomials of degree 3 ---- *)
Lemma poly_regular c : regular (poly c).
Proof. induction c as [|c0 c IH]; intros x y H; cbn [poly]; [reflexivity|]. rewrite (IH x y H), H. reflexivity. Qed.

Section Cubic.
Variables a0 a1 a2 a3 a b : Q.
Let f := poly [a0; a1; a2; a3].
Lemma f_eq x : (f x == a0 + a1 * x + a2 * x * x + a3 * x * x * x)%Q.
Proof. unfold f. cbn [poly]. ring. Qed.
Lemma sum_cubic h n :
  (sumf n (fun k => f (a + qn (S k) * h)) ==
   qn n * (a0 + a1 * a + a2 * a * a + a3 * a * a * a)
   + (a1 + 2 * a2 * a + 3 * a3 * a * a) * h * (qn n * (qn n + 1) / 2)
   + (a2 + 3 * a3 * a) * h * h * (qn n * (qn n + 1) * (2 * qn n + 1) / 6)
   + a3 * h * h * h * (qn n * qn n * (qn n + 1) * (qn n + 1) / 4))%Q.
Proof.
  induction n as [|n IH]; cbn [sumf].
  - change (qn 0) with 0%Q. field.
  - rewrite IH, f_eq, !qn_S. field.
Qed.
Definition second : Q := ((b - a) * (b - a) * ((a1 + 2 * a2 * b + 3 * a3 * b * b) - (a1 + 2 * a2 * a + 3 * a3 * a * a)) / 12)%Q.
Lemma integral_eq : (integral [a0; a1; a2; a3] a b ==
  a0 * (b - a) + a1 * (b * b - a * a) / 2 + a2 * (b * b * b - a * a * a) / 3 + a3 * (b * b * b * b - a * a * a * a) / 4)%Q.
Proof.
  unfold integral. cbn [primitive Pos.succ]. unfold inject_Z.
  cbn [Qpower Qpower_positive pow_pos]. unfold Qpower_positive. cbn [pow_pos]. field.
Qed.
Lemma trapezium_cubic n : 0 < n ->
  (trapezium f a b n == integral [a0; a1; a2; a3] a b + second / (qn n * qn n))%Q.
Proof.
  intro Hn. rewrite integral_eq. unfold trapezium, second. cbv zeta. rewrite sum_cubic, !f_eq.
  destruct n as [|n]; [lia|]. replace (S n - 1) with n by lia.
  assert (E : (qn n == qn (S n) - 1)%Q) by (rewrite qn_S; ring). rewrite E.
  field. apply qn_pos. lia.
Qed.
Lemma romberg_cubic n m : 1 <= m -> m <= n -> (romberg f a b n m == integral [a0; a1; a2; a3] a b)%Q.
Proof.
  revert n. induction m as [|m IH]; intros n H1 H2; [lia|]. destruct n as [|n]; [lia|].
  cbn [romberg]. replace (S n - 1) with n by lia. destruct m as [|m].
  - cbn [romberg]. rewrite !trapezium_cubic by apply pow2_pos.
    rewrite Nat.pow_succ_r by lia. rewrite qn_mul. change (qn 2) with 2%Q.
    change (inject_Z (4 ^ Z.of_nat 1 - 1)) with 3%Q. field. apply qn_pos, pow2_pos.
  - rewrite !(IH) by lia. field. apply pow4_big. lia.
Qed.
Lemma integrate_cubic e : (0 <= e)%Q ->
  exists r, integrate_func f a b e = Ok r /\ (r == integral [a0; a1; a2; a3] a b)%Q.
Proof.
  intro He. assert (A2 : agree f a b e 2).
  { unfold agree. rewrite !romberg_cubic by lia.
    assert (E : (Qabs (integral [a0; a1; a2; a3] a b - integral [a0; a1; a2; a3] a b) == 0)%Q).
    { setoid_replace (integral [a0; a1; a2; a3] a b - integral [a0; a1; a2; a3] a b)%Q with 0%Q by ring. reflexivity. }
    rewrite E. apply Qmult_le_0_compat; [exact He|apply Qabs_nonneg]. }
  destruct (agree_dec f a b e 1) as [A1|A1].
  - destruct (integrate_stop f (poly_regular _) a b e 1 ltac:(lia) A1 ltac:(intros; lia)) as (r & E & R).
    exists r. split; [exact E|]. rewrite R. apply romberg_cubic; lia.
  - destruct (integrate_stop f (poly_regular _) a b e 2 ltac:(lia) A2) as (r & E & R).
    { intros j H1 H2. replace j with 1 by lia. exact A1. }
    exists r. split; [exact E|]. rewrite R. apply romberg_cubic; lia.
Qed.
End Cubic.

(* ---- values of the table that follow those of another ---- *)
Lemma romberg_scale f g a b c d s :
  (forall n, (trapezium g c d (2 ^ n) == s * trapezium f a b (2 ^ n))%Q) ->
  forall m n, (romberg g c d n m == s * romberg f a b n m)%Q.
Proof.
  intro H. induction m as [|m IH]; intro n; cbn [romberg]; [apply H|]. rewrite !IH. field. apply pow4_big. lia.
Qed.
Lemma agree_scale f g a b c d s e n : ~ (s == 0)%Q ->
  (forall n, (trapezium g c d (2 ^ n) == s * trapezium f a b (2 ^ n))%Q) ->
  agree g c d e n <-> agree f a b e n.
Proof.
  intros Hs H. unfold agree. rewrite !(romberg_scale f g a b c d s H).
  assert (E : (s * romberg f a b n n - s * romberg f a b n (n - 1) == s * (romberg f a b n n - romberg f a b n (n - 1)))%Q) by ring.
  rewrite E, !Qabs_Qmult.
  assert (P : (0 < Qabs s)%Q).
  { destruct (Qlt_le_dec 0 (Qabs s)) as [P|P]; [exact P|]. exfalso. apply Hs.
    pose proof (Qle_Qabs s). pose proof (Qle_Qabs (- s)) as P2. rewrite Qabs_opp in P2. lra. }
  generalize (Qabs (romberg f a b n n - romberg f a b n (n - 1))) (Qabs (romberg f a b n n)). intros u v.
  assert (E2 : (e * (Qabs s * v) == Qabs s * (e * v))%Q) by ring. rewrite E2. split; intro L.
  - apply (Qmult_le_l _ _ (Qabs s)); assumption.
  - apply (Qmult_le_l _ _ (Qabs s)); assumption.
Qed.
Lemma integrate_scale f g a b c d s e : regular f -> regular g -> ~ (s == 0)%Q ->
  (forall n, (trapezium g c d (2 ^ n) == s * trapezium f a b (2 ^ n))%Q) ->
  (integrate_func f a b e = UB /\ integrate_func g c d e = UB) \/
  exists r r', integrate_func f a b e = Ok r /\ integrate_func g c d e = Ok r' /\ (r' == s * r)%Q.
Proof.
  intros Rf Rg Hs H. destruct (integrate_cases f Rf a b e) as [[N E]|(n & r & Hn & A & B & E & R)].
  - left. split; [exact E|]. apply integrate_ub; [exact Rg|]. intros n H1 H2 A.
    apply (N n H1 H2). apply (agree_scale f g a b c d s e n Hs H). exact A.
  - right. destruct (integrate_stop g Rg c d e n Hn) as (r' & E' & R').
    + apply (agree_scale f g a b c d s e n Hs H). exact A.
    + intros j H1 H2 A'. apply (B j H1 H2). apply (agree_scale f g a b c d s e j Hs H). exact A'.
    + exists r, r'. split; [exact E|]. split; [exact E'|]. rewrite R, R'. apply romberg_scale. exact H.
Qed.
Lemma trapezium_reversed f a b n : regular f -> 0 < n -> (trapezium f b a n == - (1) * trapezium f a b n)%Q.
Proof.
  intros Rf Hn. unfold trapezium. cbv zeta. rewrite sumf_rev.
  rewrite (sumf_ext (n - 1) (fun k => f (b + qn (S (n - 1 - 1 - k)) * ((a - b) / qn n)))%Q
                            (fun k => f (a + qn (S k) * ((b - a) / qn n)))%Q).
  - field. apply qn_pos. exact Hn.
  - intros k Hk. apply Rf.
    assert (E : (qn n == qn (S k) + qn (S (n - 1 - 1 - k)))%Q).
    { unfold qn. rewrite <- inject_Z_plus. replace (Z.of_nat (S k) + Z.of_nat (S (n - 1 - 1 - k)))%Z with (Z.of_nat n) by lia. reflexivity. }
    assert (E2 : (qn (S (n - 1 - 1 - k)) == qn n - qn (S k))%Q) by (rewrite E; ring).
    rewrite E2. field. apply qn_pos. exact Hn.
Qed.
Lemma trapezium_multiple f a b s n : 0 < n -> (trapezium (fun x => s * f x) a b n == s * trapezium f a b n)%Q.
Proof.
  intro Hn. unfold trapezium. cbv zeta. rewrite (sumf_mul (n - 1) s (fun k => f (a + qn (S k) * ((b - a) / qn n)))%Q).
  field. apply qn_pos. exact Hn.
Qed.

(* ---- three zeros ---- *)
Lemma three_zeros f a b e : regular f -> (f a == 0)%Q -> (f b == 0)%Q -> (f ((a + b) / 2) == 0)%Q ->
  exists r, integrate_func f a b e = Ok r /\ (r == 0)%Q.
Proof.
  intros Rf Ha Hb Hm.
  assert (T1 : (trapezium f a b 1 == 0)%Q).
  { unfold trapezium. cbn [Nat.sub sumf]. rewrite Ha, Hb. change (qn 1) with 1%Q. field. }
  assert (T2 : (trapezium f a b 2 == 0)%Q).
  { unfold trapezium. cbn [Nat.sub sumf]. rewrite Ha, Hb.
    assert (E : (f (a + qn 1 * ((b - a) / qn 2)) == 0)%Q).
    { rewrite <- Hm. apply Rf. change (qn 1) with 1%Q. change (qn 2) with 2%Q. field. }
    rewrite E. change (qn 2) with 2%Q. field. }
  assert (R1 : (romberg f a b 1 1 == 0)%Q).
  { cbn [romberg Nat.sub Nat.pow Nat.mul Nat.add]. rewrite T1, T2. reflexivity. }
  destruct (integrate_stop f Rf a b e 1) as (r & E & R).
  - lia.
  - unfold agree. rewrite R1. cbn [romberg Nat.sub Nat.pow Nat.mul Nat.add]. rewrite T2.
    change (Qabs (0 - 0)) with 0%Q. change (Qabs 0) with 0%Q. lra.
  - intros; lia.
  - exists r. split; [exact E|]. rewrite R. exact R1.
Qed.
Lemma empty_interval f a b e : regular f -> (a == b)%Q -> exists r, integrate_func f a b e = Ok r /\ (r == 0)%Q.
Proof.
  intros Rf Hab.
  assert (T : forall n, 0 < n -> (trapezium f a b n == 0)%Q).
  { intros n Hn. unfold trapezium. cbv zeta. assert (E : ((b - a) / qn n == 0)%Q).
    { setoid_replace (b - a)%Q with 0%Q by (rewrite Hab; ring). field. apply qn_pos. exact Hn. }
    rewrite E at 1. ring. }
  assert (R1 : (romberg f a b 1 1 == 0)%Q).
  { cbn [romberg Nat.sub]. rewrite !T by apply pow2_pos. reflexivity. }
  destruct (integrate_stop f Rf a b e 1) as (r & E & R).
  - lia.
  - unfold agree. rewrite R1. cbn [romberg Nat.sub]. rewrite T by apply pow2_pos.
    change (Qabs (0 - 0)) with 0%Q. change (Qabs 0) with 0%Q. lra.
  - intros; lia.
  - exists r. split; [exact E|]. rewrite R. exact R1.
Qed.

(* ---- a jump at the beginning of the interval ---- *)
Lemma spike_regular : regular spike.
Proof.
  intros x y H. unfold spike. destruct (Qeq_bool x 0) eqn:E1, (Qeq_bool y 0) eqn:E2; try reflexivity.
  - apply Qeq_bool_iff in E1. apply Qeq_bool_neq in E2. exfalso. apply E2. rewrite <- H. exact E1.
  - apply Qeq_bool_iff in E2. apply Qeq_bool_neq in E1. exfalso. apply E1. rewrite H. exact E2.
Qed.
Lemma spike_trapezium n : 0 < n -> (trapezium spike 0 1 n == 1 / (2 * qn n))%Q.
Proof.
  intro Hn. unfold trapezium. cbv zeta.
  rewrite (sumf_ext (n - 1) _ (fun _ => 0%Q)).
  - assert (Z0 : forall k, (sumf k (fun _ => 0%Q) == 0)%Q) by (induction k as [|k IH]; cbn [sumf]; [reflexivity|rewrite IH; reflexivity]).
    rewrite Z0. change (spike 0) with 1%Q. change (spike 1) with 0%Q. field. apply qn_pos. exact Hn.
  - intros k Hk. unfold spike. destruct (Qeq_bool (0 + qn (S k) * ((1 - 0) / qn n)) 0) eqn:E; [|reflexivity].
    exfalso. apply Qeq_bool_iff in E. apply (qn_pos (S k)); [lia|].
    assert (E2 : (qn (S k) == (0 + qn (S k) * ((1 - 0) / qn n)) * qn n)%Q) by (field; apply qn_pos; exact Hn).
    rewrite E2, E. ring.
Qed.
(* R(n,m) = 2 R(n+1,m) *)
Lemma spike_half m n : (romberg spike 0 1 n m == 2 * romberg spike 0 1 (S n) m)%Q \/ n < m.
Proof.
  revert n. induction m as [|m IH]; intro n.
  - left. cbn [romberg]. rewrite !spike_trapezium by apply pow2_pos. rewrite Nat.pow_succ_r by lia.
    rewrite qn_mul. change (qn 2) with 2%Q. field. apply qn_pos, pow2_pos.
  - destruct n as [|n]; [right; lia|]. destruct (IH n) as [E1|E1]; [|right; lia].
    destruct (IH (S n)) as [E2|E2]; [|right; lia]. left. cbn [romberg].
    replace (S (S n) - 1) with (S n) by lia. replace (S n - 1) with n by lia.
    rewrite E1, E2. field. apply pow4_big. lia.
Qed.
Lemma spike_step n m : m <= n -> (0 < romberg spike 0 1 (S n) m)%Q ->
  (romberg spike 0 1 (S n) (S m) == romberg spike 0 1 (S n) m * (1 - 1 / inject_Z (4 ^ Z.of_nat (S m) - 1)))%Q.
Proof.
  intros Hm _. change (romberg spike 0 1 (S n) (S m)) with
    (romberg spike 0 1 (S n) m + (romberg spike 0 1 (S n) m - romberg spike 0 1 (S n - 1) m) / inject_Z (4 ^ Z.of_nat (S m) - 1))%Q.
  replace (S n - 1) with n by lia.
  destruct (spike_half m n) as [E|E]; [|lia]. rewrite E. field. apply pow4_big. lia.
Qed.
Lemma frac_bound m : (0 < 1 / inject_Z (4 ^ Z.of_nat (S m) - 1) <= 1 # 3)%Q.
Proof.
  assert (4 ^ 1 <= 4 ^ Z.of_nat (S m))%Z by (apply Z.pow_le_mono_r; lia).
  assert (P : (3 <= inject_Z (4 ^ Z.of_nat (S m) - 1))%Q).
  { change 3%Q with (inject_Z 3). rewrite <- Zle_Qle. lia. }
  generalize dependent (inject_Z (4 ^ Z.of_nat (S m) - 1)). intros q P. split.
  - apply Qlt_shift_div_l; lra.
  - apply Qle_shift_div_r; lra.
Qed.
Lemma spike_pos n m : m <= n -> (0 < romberg spike 0 1 n m)%Q.
Proof.
  revert n. induction m as [|m IH]; intros n Hm.
  - cbn [romberg]. rewrite spike_trapezium by apply pow2_pos.
    assert (P : (0 < qn (2 ^ n))%Q) by (unfold qn, Qlt; cbn; pose proof (pow2_pos n); lia).
    apply Qlt_shift_div_l; lra.
  - destruct n as [|n]; [lia|]. pose proof (IH (S n) ltac:(lia)) as P.
    rewrite (spike_step n m ltac:(lia) P). pose proof (frac_bound m) as B.
    generalize dependent (romberg spike 0 1 (S n) m). generalize dependent (1 / inject_Z (4 ^ Z.of_nat (S m) - 1))%Q.
    intros u B v P. apply Qmult_lt_0_compat; lra.
Qed.
(* the last two values of row n differ by the fraction 1/(4^n - 2) of the last one *)
Lemma spike_never n e : 1 <= n -> n <= 15 -> (e <= 1 # 2 ^ 30)%Q -> ~ agree spike 0 1 e n.
Proof.
  intros H1 H2 He A. destruct n as [|n]; [lia|]. unfold agree in A. replace (S n - 1) with n in A by lia.
  pose proof (spike_pos (S n) n ltac:(lia)) as P. pose proof (spike_pos (S n) (S n) (Nat.le_refl _)) as P2.
  rewrite (Qabs_pos (romberg spike 0 1 (S n) (S n))) in A by lra.
  rewrite (spike_step n n (Nat.le_refl _) P) in A.
  assert (B : (1 # 2 ^ 30 < 1 / inject_Z (4 ^ Z.of_nat (S n) - 1))%Q).
  { clear A. assert (4 ^ 1 <= 4 ^ Z.of_nat (S n) <= 4 ^ 15)%Z by (split; apply Z.pow_le_mono_r; lia).
    assert (P3 : (3 <= inject_Z (4 ^ Z.of_nat (S n) - 1) < inject_Z (2 ^ 30))%Q).
    { split; [change 3%Q with (inject_Z 3); rewrite <- Zle_Qle; lia|rewrite <- Zlt_Qlt; lia]. }
    generalize dependent (inject_Z (4 ^ Z.of_nat (S n) - 1)). intros q P3.
    change (inject_Z (2 ^ 30)) with (1073741824 # 1)%Q in P3. change (1 # 2 ^ 30)%Q with (1 # 1073741824)%Q.
    apply Qlt_shift_div_l; lra. }
  pose proof (frac_bound n) as F.
  clear P2. revert A B F P. generalize (romberg spike 0 1 (S n) n). generalize (1 / inject_Z (4 ^ Z.of_nat (S n) - 1))%Q.
  intros u v A B F P. change (1 # 2 ^ 30)%Q with (1 # 1073741824)%Q in *.
  assert (E : (v * (1 - u) - v == - (v * u))%Q) by ring. rewrite E, Qabs_opp in A.
  assert (Pu : (0 < v * u)%Q) by (apply Qmult_lt_0_compat; lra). rewrite Qabs_pos in A by lra.
  assert (L : (e * (v * (1 - u)) < v * u)%Q); [|lra].
  assert (v * (1 - u) <= v)%Q by nra. assert (0 < v * (1 - u))%Q by nra. nra.
Qed.

(* ---- clipping ---- *)
Lemma numbers_dev med v : numbers (map (fun x => abs_diff x (Num med)) v) = deviations med (numbers v).
Proof. induction v as [|x v IH]; [reflexivity|]. destruct x; [exact IH|cbn; f_equal; exact IH]. Qed.
Lemma numbers_perm v w : Permutation v w -> Permutation (numbers v) (numbers w).
Proof. intro H. unfold numbers. apply Permutation_flat_map. exact H. Qed.
Lemma order_stat_perm (l l' : list Z) k x : Permutation l l' -> order_stat Z.ltb l k x -> order_stat Z.ltb l' k x.
Proof.
  intros P (A & B). split; [apply (Permutation_in _ P); exact A|].
  rewrite <- (filter_perm_len _ (fun y => Z.ltb y x) l l' P), <- (filter_perm_len _ (fun y => negb (Z.ltb x y)) l l' P). exact B.
Qed.
Lemma clip_ok perm v sigma : (forall l, Permutation (perm l) l) -> numbers v <> [] ->
  exists med mad r, sigma_clip perm v sigma = Ok r /\
    order_stat Z.ltb (numbers v) (length (numbers v) / 2) med /\
    order_stat Z.ltb (deviations med (numbers v)) (length (numbers v) / 2) mad /\
    length r = length v /\
    forall i x, nth_error v i = Some x ->
      exists b, nth_error r i = Some b /\
        (b = true <-> exists a, x = Num a /\ (inject_Z (Z.abs (a - med)) <= sigma * (148 # 100) * inject_Z mad)%Q).
Proof.
  intros P Hv. destruct (median_ok v Hv) as (med & E1 & S1). unfold sigma_clip. rewrite E1. cbn [Base.obind].
  assert (P2 : Permutation (numbers (map (fun x => abs_diff x (Num med)) (perm v))) (deviations med (numbers v))).
  { rewrite numbers_dev. unfold deviations. apply Permutation_map, numbers_perm, P. }
  destruct (median_ok (map (fun x => abs_diff x (Num med)) (perm v))) as (mad & E2 & S2).
  { intro E. rewrite E in P2. apply Permutation_nil in P2. apply Hv. unfold deviations in P2. apply map_eq_nil in P2. exact P2. }
  rewrite E2. cbn [Base.obind]. exists med, mad. eexists. split; [reflexivity|]. split; [exact S1|]. split.
  { replace (length (numbers v)) with (length (numbers (map (fun x => abs_diff x (Num med)) (perm v)))).
    - apply (order_stat_perm _ _ _ _ P2). exact S2.
    - rewrite (Permutation_length P2). apply map_length. }
  split; [apply map_length|]. intros i x Hx. eexists. split; [rewrite nth_error_map, Hx; reflexivity|].
  destruct x as [|a]; cbn [abs_diff within].
  - split; [discriminate|]. intros (a' & E & _). discriminate.
  - rewrite Qle_bool_iff.
    setoid_replace (sigma * ((148 # 100) * inject_Z mad))%Q with (sigma * (148 # 100) * inject_Z mad)%Q by ring.
    split; [intro H; exists a; auto|]. intros (a' & E & H). injection E as <-. exact H.
Qed.
Lemma clip_nan perm v sigma : (forall l, Permutation (perm l) l) -> v <> [] -> numbers v = [] ->
  sigma_clip perm v sigma = Ok (map (fun _ => false) v).
Proof.
  intros P Hv Hn. unfold sigma_clip. rewrite (median_nan v Hv Hn). cbn [Base.obind].
  rewrite (median_nan (map (fun x => abs_diff x NaN) (perm v))).
  - cbn [Base.obind]. f_equal. apply map_ext. intros x. unfold within. destruct (abs_diff x NaN); reflexivity.
  - intro E. apply map_eq_nil in E. pose proof (P v) as P2. rewrite E in P2. apply Permutation_nil in P2. contradiction.
  - generalize (perm v) as l. induction l as [|x l IH]; [reflexivity|]. destruct x; exact IH.
Qed.
(* the numbers kept *)
Definition kept (sigma : Q) (med mad : Z) (l : list Z) : list Z :=
  filter (fun a => Qle_bool (inject_Z (Z.abs (a - med))) (sigma * (148 # 100) * inject_Z mad)) l.
Lemma filter_map_len A B (g : A -> B) p l : length (filter p (map g l)) = length (filter (fun x => p (g x)) l).
Proof. induction l as [|x l IH]; [reflexivity|]. cbn. destruct (p (g x)); cbn; rewrite IH; reflexivity. Qed.
Lemma kept_half sigma med mad l k : (100 # 148 <= sigma)%Q -> (0 <= mad)%Z ->
  order_stat Z.ltb (deviations med l) k mad -> k < length (kept sigma med mad l).
Proof.
  intros Hs Hm (_ & _ & H). unfold deviations in H. rewrite filter_map_len in H.
  eapply Nat.lt_le_trans; [exact H|]. unfold kept. apply filter_len_le. intros x _ Hx.
  apply negb_true_iff, Z.ltb_ge in Hx. apply Qle_bool_iff.
  assert (inject_Z (Z.abs (x - med)) <= inject_Z mad)%Q by (rewrite <- Zle_Qle; exact Hx).
  assert (0 <= inject_Z mad)%Q by (change 0%Q with (inject_Z 0); rewrite <- Zle_Qle; exact Hm).
  assert (1 <= sigma * (148 # 100))%Q by lra. nra.
Qed.
Lemma mad_nonneg med l k mad : order_stat Z.ltb (deviations med l) k mad -> (0 <= mad)%Z.
Proof. intros (H & _). unfold deviations in H. apply in_map_iff in H. destruct H as (x & <- & _). apply Z.abs_nonneg. Qed.
Lemma trues_kept sigma med mad : forall v r, length r = length v ->
  (forall i x, nth_error v i = Some x -> exists b, nth_error r i = Some b /\
     (b = true <-> exists a, x = Num a /\ (inject_Z (Z.abs (a - med)) <= sigma * (148 # 100) * inject_Z mad)%Q)) ->
  length (filter (fun b => b) r) = length (kept sigma med mad (numbers v)).
Proof.
  induction v as [|x v IH]; intros r Hl H; destruct r as [|b r]; try discriminate; [reflexivity|].
  injection Hl as Hl. assert (IH' := IH r Hl (fun i y Hy => H (S i) y Hy)).
  destruct (H 0 x eq_refl) as (b' & Eb & Hb). injection Eb as <-.
  destruct x as [|a].
  - unfold numbers, kept. cbn [flat_map app]. fold (numbers v). cbn [filter].
    destruct b; [|exact IH']. destruct (proj1 Hb eq_refl) as (a' & E' & _). discriminate.
  - unfold numbers, kept. cbn [flat_map app]. fold (numbers v). cbn [filter].
    destruct (Qle_bool (inject_Z (Z.abs (a - med))) (sigma * (148 # 100) * inject_Z mad)) eqn:E.
    + assert (b = true) as -> by (apply Hb; exists a; split; [reflexivity|apply Qle_bool_iff; exact E]).
      cbn [length]. f_equal. exact IH'.
    + destruct b; [|exact IH']. exfalso. destruct (proj1 Hb eq_refl) as (a' & E' & L). injection E' as <-.
      apply Qle_bool_iff in L. congruence.
Qed.
Lemma clip_half perm v sigma r : (forall l, Permutation (perm l) l) -> numbers v <> [] -> (100 # 148 <= sigma)%Q ->
  sigma_clip perm v sigma = Ok r -> length (numbers v) / 2 < length (filter (fun b => b) r).
Proof.
  intros P Hv Hs E. destruct (clip_ok perm v sigma P Hv) as (med & mad & r' & E' & S1 & S2 & L & K).
  rewrite E in E'. injection E' as <-. rewrite (trues_kept sigma med mad v r L K).
  apply kept_half; [exact Hs|exact (mad_nonneg _ _ _ _ S2)|exact S2].
Qed.
