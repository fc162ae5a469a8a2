(* C105: random integers and coins. *)
From Coq Require Import QArith Qround Qfield Lqa Lia Qpower.
From Verif Require Import Base RandintModel RandintSpec RandintProofs.
Local Open Scope nat_scope.

(* Whatever the rounding, the integers are at least mi and at most ma + 1, and there is no undefined
   behaviour, as long as ma + 1 and the number of possible values are in the type and below 2^53. *)
Theorem C105_range : forall rnd t mi ma us, rounding rnd -> (imin t <= mi /\ mi <= ma /\ ma + 1 <= imax t /\ imin t <= 0 /\ ma + 1 - mi <= imax t)%Z ->
  (Z.abs mi <= 2 ^ 53 /\ Z.abs (ma + 1) <= 2 ^ 53 /\ ma + 1 - mi <= 2 ^ 53)%Z -> Forall (fun u => (0 <= u)%Q /\ (u < 1)%Q) us ->
  exists l, randomi rnd t mi ma us = Ok l /\ length l = length us /\ Forall (fun x => (mi <= x <= ma + 1)%Z) l.
Proof. intros. apply range_ok; assumption. Qed.
Print Assumptions C105_range.

Lemma id_rounding : rounding (fun q => q).
Proof. split; [intros a b H; exact H|intros; reflexivity]. Qed.
Lemma exact_one t mi ma u : (imin t <= mi /\ mi <= ma /\ ma + 1 <= imax t /\ imin t <= 0 /\ ma + 1 - mi <= imax t)%Z -> (0 <= u)%Q -> (u < 1)%Q ->
  randomi (fun q => q) t mi ma [u] = Ok [trunc (u * inject_Z (ma + 1 - mi) + inject_Z mi)%Q] /\
  (inject_Z mi <= u * inject_Z (ma + 1 - mi) + inject_Z mi /\ u * inject_Z (ma + 1 - mi) + inject_Z mi < inject_Z (ma + 1))%Q.
Proof.
  intros B U0 U1. rewrite arith_ok by exact B. cbn [omapl]. unfold randomi_one, to_int.
  assert (N : (0 < inject_Z (ma + 1 - mi))%Q) by (change 0%Q with (inject_Z 0); rewrite <- Zlt_Qlt; lia).
  assert (Sum : (inject_Z (ma + 1 - mi) + inject_Z mi == inject_Z (ma + 1))%Q) by (rewrite <- inject_Z_plus; replace (ma + 1 - mi + mi)%Z with (ma + 1)%Z by lia; reflexivity).
  set (n := inject_Z (ma + 1 - mi)) in *. clearbody n. set (v := (u * n + inject_Z mi)%Q).
  assert (L : (inject_Z mi <= v)%Q) by (unfold v; nra). assert (H : (v < inject_Z (ma + 1))%Q) by (unfold v; nra). clearbody v. split; [|split; assumption].
  pose proof (trunc_mono _ _ L) as L'. assert (H' : (v <= inject_Z (ma + 1))%Q) by lra. apply trunc_mono in H'. rewrite trunc_int in L', H'. unfold fits.
  destruct (Z.leb_spec (imin t) (trunc v)); [|lia]. destruct (Z.leb_spec (trunc v) (imax t)); [|lia]. reflexivity.
Qed.
Lemma trunc_interval v (j : Z) : (0 <= v)%Q -> trunc v = j <-> (inject_Z j <= v /\ v < inject_Z (j + 1))%Q.
Proof.
  intros H. rewrite trunc_nonneg by exact H. split; [intros <-; split; [apply Qfloor_le|apply Qlt_floor]|]. intros [A C]. apply Z.le_antisymm.
  - cut (Qfloor v < j + 1)%Z; [lia|]. rewrite Zlt_Qlt. eapply Qle_lt_trans; [apply Qfloor_le|exact C].
  - rewrite <- (Qfloor_Z j). apply Qfloor_resp_le. exact A.
Qed.
(* In exact arithmetic, with bounds that are not negative, each value from mi to ma has an interval of random
   numbers of its own, all of the same width, and no other value is possible. *)
Theorem C105_exact : forall t mi ma u, (imin t <= mi /\ mi <= ma /\ ma + 1 <= imax t /\ imin t <= 0 /\ ma + 1 - mi <= imax t)%Z -> (0 <= mi)%Z -> (0 <= u)%Q -> (u < 1)%Q ->
  exists x, randomi (fun q => q) t mi ma [u] = Ok [x] /\ (mi <= x <= ma)%Z /\
    (inject_Z (x - mi) <= u * inject_Z (ma + 1 - mi) /\ u * inject_Z (ma + 1 - mi) < inject_Z (x + 1 - mi))%Q.
Proof.
  intros t mi ma u B M U0 U1. destruct (exact_one t mi ma u B U0 U1) as (E & L & H). eexists. split; [exact E|]. set (w := (u * inject_Z (ma + 1 - mi))%Q) in *. clearbody w.
  assert (P : (0 <= w + inject_Z mi)%Q) by (eapply Qle_trans; [|exact L]; change 0%Q with (inject_Z 0); rewrite <- Zle_Qle; lia). set (x := trunc _). pose proof (proj1 (trunc_interval _ x P) eq_refl) as [A C]. clearbody x.
  assert (Q1 : forall a b, (inject_Z (a - b) == inject_Z a - inject_Z b)%Q) by (clear; intros a b; unfold Zminus; rewrite inject_Z_plus, inject_Z_opp; reflexivity). rewrite !Q1. split; [|split; lra].
  split; [cut (mi < x + 1)%Z; [lia|]; rewrite Zlt_Qlt; lra|]. cut (x < ma + 1)%Z; [lia|]. rewrite Zlt_Qlt. lra.
Qed.
Print Assumptions C105_exact.
(* of N equally spaced random numbers each value gets N / (ma + 1 - mi), within less than one *)
Theorem C105_even : forall t mi ma j N, (imin t <= mi /\ mi <= ma /\ ma + 1 <= imax t /\ imin t <= 0 /\ ma + 1 - mi <= imax t)%Z -> (0 <= mi)%Z -> (mi <= j <= ma)%Z -> 0 < N ->
  (Z.abs (Z.of_nat (howmany N (fun u => match randomi (fun q => q) t mi ma [u] with Ok [x] => x =? j | _ => false end)%Z) * (ma + 1 - mi) - Z.of_nat N) < ma + 1 - mi)%Z.
Proof.
  intros t mi ma j N B M J P. unfold howmany. set (n := (ma + 1 - mi)%Z). set (up := fun x => ((x + n - 1) / n)%Z).
  assert (Hup : forall x, (x <= up x * n /\ up x * n < x + n)%Z).
  { intros x. unfold up. pose proof (Z.div_mod (x + n - 1) n ltac:(lia)). pose proof (Z.mod_pos_bound (x + n - 1) n ltac:(lia)). lia. }
  assert (Eq : forall k, In k (seq 0 N) -> match randomi (fun q => q) t mi ma [(Z.of_nat k # Pos.of_nat N)%Q] with Ok [x] => (x =? j)%Z | _ => false end = ((up ((j - mi) * Z.of_nat N) <=? Z.of_nat k) && (Z.of_nat k <? up ((j + 1 - mi) * Z.of_nat N)))%Z).
  { intros k I. apply in_seq in I. assert (PN : Zpos (Pos.of_nat N) = Z.of_nat N) by (rewrite <- positive_nat_Z, Nat2Pos.id by lia; reflexivity).
    destruct (exact_one t mi ma (Z.of_nat k # Pos.of_nat N)%Q B) as (E & L & H); [unfold Qle; cbn; lia|unfold Qlt; cbn; rewrite PN; lia|]. rewrite E.
    set (v := ((Z.of_nat k # Pos.of_nat N) * inject_Z (ma + 1 - mi) + inject_Z mi)%Q) in *.
    assert (V0 : (0 <= v)%Q) by (eapply Qle_trans; [|exact L]; change 0%Q with (inject_Z 0); rewrite <- Zle_Qle; lia).
    assert (K1 : (inject_Z j <= v)%Q <-> ((j - mi) * Z.of_nat N <= Z.of_nat k * n)%Z) by (unfold v, Qle, Qplus, Qmult, inject_Z; cbn [Qnum Qden]; rewrite !Pos2Z.inj_mul, !Z.mul_1_r, !PN; unfold n; nia).
    assert (K2 : (v < inject_Z (j + 1))%Q <-> (Z.of_nat k * n < (j + 1 - mi) * Z.of_nat N)%Z) by (unfold v, Qlt, Qplus, Qmult, inject_Z; cbn [Qnum Qden]; rewrite !Pos2Z.inj_mul, !Z.mul_1_r, !PN; unfold n; nia).
    apply Bool.eq_iff_eq_true. rewrite Bool.andb_true_iff, Z.eqb_eq, Z.leb_le, Z.ltb_lt, trunc_interval, K1, K2 by exact V0.
    pose proof (Hup ((j - mi) * Z.of_nat N)%Z) as [A1 A2]. pose proof (Hup ((j + 1 - mi) * Z.of_nat N)%Z) as [A3 A4]. set (a := up ((j - mi) * Z.of_nat N)%Z) in *. set (b := up ((j + 1 - mi) * Z.of_nat N)%Z) in *. assert (n0 : (0 < n)%Z) by lia. clearbody a b n. clear - A1 A2 A3 A4 n0. split; intros [C D]; split; nia. }
  rewrite (filter_ext_in _ _ _ Eq).
  assert (n0 : (0 < n)%Z) by lia. pose proof (Hup ((j - mi) * Z.of_nat N)%Z) as [A1 A2]. pose proof (Hup ((j + 1 - mi) * Z.of_nat N)%Z) as [A3 A4]. 
  assert (A5 : (up ((j + 1 - mi) * Z.of_nat N) <= Z.of_nat N)%Z) by (cut ((j + 1 - mi) * Z.of_nat N <= n * Z.of_nat N)%Z; [clearbody n; intros; nia|]; apply Z.mul_le_mono_nonneg_r; lia).
  set (a := up ((j - mi) * Z.of_nat N)%Z) in *. set (b := up ((j + 1 - mi) * Z.of_nat N)%Z) in *. rewrite count_between; [| |exact A5].
  - clearbody a b. assert (a <= b)%Z by (clearbody n; nia). rewrite Z2Nat.id by lia. replace ((j + 1 - mi) * Z.of_nat N)%Z with ((j - mi) * Z.of_nat N + Z.of_nat N)%Z in * by ring. clearbody n. nia.
  - clearbody a b. assert (0 <= (j - mi) * Z.of_nat N)%Z by nia. replace ((j + 1 - mi) * Z.of_nat N)%Z with ((j - mi) * Z.of_nat N + Z.of_nat N)%Z in * by ring. clearbody n. split; nia.
Qed.
Print Assumptions C105_even.
Example ex_int : randomi (fun q => q) int32 1 6 [0; 1 # 6; 1 # 2; 5 # 12; 99 # 100]%Q = Ok [1; 2; 4; 3; 6]%Z.
Proof. reflexivity. Qed.
Example ex_even : howmany 12 (fun u => match randomi (fun q => q) uint64 3 7 [u] with Ok [x] => x =? 5 | _ => false end)%Z = 3.
Proof. reflexivity. Qed.

(* Finding: with a negative lower bound the conversion to integers rounds towards zero: mi itself only comes for
   the random number 0, while 0 comes for an interval twice as wide as those of the other values. *)
Theorem C105_negative_refuted : forall t mi ma u, (imin t <= mi /\ mi <= ma /\ ma + 1 <= imax t /\ imin t <= 0 /\ ma + 1 - mi <= imax t)%Z -> (mi < 0)%Z -> (0 <= ma)%Z -> (0 <= u)%Q -> (u < 1)%Q ->
  exists x, randomi (fun q => q) t mi ma [u] = Ok [x] /\ (x = mi <-> (u == 0)%Q) /\ (x = 0%Z <-> (inject_Z (- mi - 1) < u * inject_Z (ma + 1 - mi) /\ u * inject_Z (ma + 1 - mi) < inject_Z (- mi + 1))%Q).
Proof.
  intros t mi ma u B M A0 U0 U1. destruct (exact_one t mi ma u B U0 U1) as (E & L & H). eexists. split; [exact E|].
  assert (N : (0 < inject_Z (ma + 1 - mi))%Q) by (change 0%Q with (inject_Z 0); rewrite <- Zlt_Qlt; lia). set (n := inject_Z (ma + 1 - mi)) in *. clearbody n.
  assert (Neg : forall v, (v <= 0)%Q -> forall j, trunc v = j <-> (inject_Z (j - 1) < v /\ v <= inject_Z j)%Q).
  { clear. intros v V j. pose proof (trunc_interval (- v) (- j) ltac:(lra)) as K. rewrite trunc_opp in K. rewrite inject_Z_plus, !inject_Z_opp in K. unfold Zminus. rewrite inject_Z_plus. change (inject_Z (-(1))) with (- (1))%Q. change (inject_Z 1) with 1%Q in K. split; [intros X; assert (Y : (- trunc v = - j)%Z) by lia; apply K in Y; lra|]. intros X. cut (- trunc v = - j)%Z; [lia|]. apply K. lra. }
  split.
  - destruct (Qlt_le_dec 0 (u * n + inject_Z mi)%Q) as [V|V].
    + split; [intros X|intros X]; [|exfalso; rewrite X in V; assert (inject_Z mi < 0)%Q by (change 0%Q with (inject_Z 0); rewrite <- Zlt_Qlt; lia); lra]. exfalso. assert (0 <= trunc (u * n + inject_Z mi)%Q)%Z by (rewrite trunc_nonneg by lra; change 0%Z with (Qfloor 0); apply Qfloor_resp_le; lra). lia.
    + rewrite (Neg _ V). unfold Zminus. rewrite inject_Z_plus. change (inject_Z (-(1))) with (- (1))%Q. split; [intros [_ X]; nra|intros X; rewrite X; lra].
  - rewrite (inject_Z_plus (- mi) 1). unfold Zminus. rewrite inject_Z_plus, inject_Z_opp. change (inject_Z (-(1))) with (- (1))%Q. change (inject_Z 1) with 1%Q. destruct (Qlt_le_dec 0 (u * n + inject_Z mi)%Q) as [V|V].
    + rewrite trunc_interval by lra. change (inject_Z 0) with 0%Q. change (inject_Z (0 + 1)) with 1%Q. split; intros [X Y]; split; lra.
    + rewrite (Neg _ V). change (inject_Z (0 - 1)) with (- (1))%Q. change (inject_Z 0) with 0%Q. split; intros [X Y]; split; lra.
Qed.
Print Assumptions C105_negative_refuted.

(* rounding to the nearest number of double precision, ties to even *)
Definition nearest (q : Q) : Z :=
  let f := Qfloor q in let d := (q - inject_Z f)%Q in
  if Qle_bool (1 # 2) d then if Qeq_bool d (1 # 2) then if Z.even f then f else (f + 1)%Z else (f + 1)%Z else f.
Definition round_double (q : Q) : Q :=
  if Qle_bool q 0 then q else
  let e := Z.max (-1022) (Z.log2 (Qfloor (q * inject_Z (2 ^ 1074))) - 1074) in
  if (e <=? 52)%Z then (inject_Z (nearest (q * inject_Z (2 ^ (52 - e)))) / inject_Z (2 ^ (52 - e)))%Q
  else (inject_Z (nearest (q / inject_Z (2 ^ (e - 52)))) * inject_Z (2 ^ (e - 52)))%Q.
(* Finding: because of rounding the value ma + 1 is possible: the sum of 1000 and the largest random number
   below 1 is rounded to 1001. *)
Theorem C105_round_refuted : exists u, (0 <= u)%Q /\ (u < 1)%Q /\ (round_double u == u)%Q /\ randomi round_double int32 1000 1000 [u] = Ok [1001%Z].
Proof. exists (1 - 1 / inject_Z (2 ^ 53))%Q. split; [apply Qle_bool_iff; reflexivity|]. split; [reflexivity|]. split; [apply Qeq_bool_iff; vm_compute; reflexivity|]. vm_compute. reflexivity. Qed.
Print Assumptions C105_round_refuted.
(* Finding: ma + 1 overflows for the largest value of a signed type, and ma + 1 - mi when there are more
   values than the largest value. *)
Theorem C105_overflow : forall rnd t mi ma us, wraps t = false -> (imin t <= 0)%Z ->
  ((ma = imax t)%Z -> randomi rnd t mi ma us = UB) /\ ((imin t <= ma < imax t)%Z -> (imax t < ma + 1 - mi)%Z -> randomi rnd t mi ma us = UB).
Proof.
  intros rnd t mi ma us W I0. unfold randomi, arith. split.
  - intros ->. unfold fits at 1. destruct (Z.leb_spec (imax t + 1) (imax t)); [lia|]. rewrite Bool.andb_false_r, W. reflexivity.
  - intros M H. unfold fits at 1. destruct (Z.leb_spec (imin t) (ma + 1)); [|lia]. destruct (Z.leb_spec (ma + 1) (imax t)); [|lia]. cbn [andb obind]. unfold fits at 1. destruct (Z.leb_spec (ma + 1 - mi) (imax t)); [lia|]. rewrite Bool.andb_false_r, W. reflexivity.
Qed.
Print Assumptions C105_overflow.
(* Finding: for the whole range of an unsigned type all results are 0. *)
Theorem C105_whole_range_refuted : forall us, randomi (fun q => q) uint64 0 (two64 - 1) us = Ok (map (fun _ => 0%Z) us).
Proof.
  intros us. unfold randomi. change (arith uint64 (two64 - 1 + 1)) with (Ok 0%Z : outcome Z). cbn [obind]. change (arith uint64 (0 - 0)) with (Ok 0%Z : outcome Z). cbn [obind].
  induction us as [|u us IH]; [reflexivity|]. cbn [omapl map]. rewrite IH. unfold randomi_one, to_int. rewrite (trunc_comp (u * inject_Z 0 + inject_Z 0)%Q (inject_Z 0)) by (change (inject_Z 0) with 0%Q; ring). rewrite trunc_int. reflexivity.
Qed.
Print Assumptions C105_whole_range_refuted.

(* A coin is true with the given probability: of N equally spaced random numbers it is for p N of them,
   within one; one more than the whole part of p N, as the comparison is not strict. *)
Theorem C105_coin : forall N p, 0 < N ->
  ((0 <= p)%Q -> (p < 1)%Q -> Z.of_nat (howmany N (fun u => coin u p)) = (Qfloor (p * inject_Z (Z.of_nat N)) + 1)%Z) /\
  ((1 <= p)%Q -> howmany N (fun u => coin u p) = N) /\ ((p < 0)%Q -> howmany N (fun u => coin u p) = 0).
Proof.
  intros N p P. assert (PN : Zpos (Pos.of_nat N) = Z.of_nat N) by (rewrite <- positive_nat_Z, Nat2Pos.id by lia; reflexivity).
  assert (K : forall k, coin (Z.of_nat k # Pos.of_nat N) p = (Z.of_nat k <? Qfloor (p * inject_Z (Z.of_nat N)) + 1)%Z).
  { intros k. apply Bool.eq_iff_eq_true. unfold coin. rewrite Qle_bool_iff, Z.ltb_lt. rewrite <- PN. 
    assert (E : (Z.of_nat k # Pos.of_nat N == inject_Z (Z.of_nat k) / inject_Z (Zpos (Pos.of_nat N)))%Q) by (apply Qmake_Qdiv). rewrite E.
    assert (N0 : (0 < inject_Z (Zpos (Pos.of_nat N)))%Q) by reflexivity. set (n := inject_Z (Zpos (Pos.of_nat N))) in *. clearbody n.
    assert (F : (inject_Z (Z.of_nat k) / n <= p <-> inject_Z (Z.of_nat k) <= p * n)%Q) by (split; intros X; [apply Qmult_le_r with (z := n) in X; [|exact N0]; eapply Qle_trans; [|exact X]; apply Qle_lteq; right; field; lra|apply Qle_shift_div_r; assumption]). rewrite F.
    split; intros X; [apply Qfloor_resp_le in X; rewrite Qfloor_Z in X; lia|]. eapply Qle_trans; [|apply Qfloor_le]. rewrite <- Zle_Qle. lia. }
  unfold howmany. rewrite (filter_ext _ _ K). assert (N0 : (0 < inject_Z (Z.of_nat N))%Q) by (change 0%Q with (inject_Z 0); rewrite <- Zlt_Qlt; lia). split; [|split].
  - intros P0 P1. assert (0 <= Qfloor (p * inject_Z (Z.of_nat N)))%Z by (change 0%Z with (Qfloor 0); apply Qfloor_resp_le; nra).
    assert (Qfloor (p * inject_Z (Z.of_nat N)) < Z.of_nat N)%Z by (rewrite Zlt_Qlt; eapply Qle_lt_trans; [apply Qfloor_le|]; nra). rewrite count_below by lia. lia.
  - intros P1. rewrite (filter_ext_in _ (fun _ => true)); [clear; generalize (seq_length N 0); induction (seq 0 N) as [|a l IH] in N |- *; intros H; [exact H|destruct N; [discriminate|]]; cbn in *; rewrite (IH N); lia|].
    intros k I. apply in_seq in I. apply Z.ltb_lt. assert (Z.of_nat N <= Qfloor (p * inject_Z (Z.of_nat N)))%Z by (rewrite <- (Qfloor_Z (Z.of_nat N)) at 1; apply Qfloor_resp_le; nra). lia.
  - intros P0. rewrite (filter_ext _ (fun _ => false)); [induction (seq 0 N); [reflexivity|assumption]|]. intros k. apply Z.ltb_ge. assert (Qfloor (p * inject_Z (Z.of_nat N)) < 0)%Z by (rewrite Zlt_Qlt; eapply Qle_lt_trans; [apply Qfloor_le|]; change (inject_Z 0) with 0%Q; nra). lia.
Qed.
Print Assumptions C105_coin.
(* coins in vectors: element i is that of the random number i and, when given, the probability i *)
Theorem C105_coins : forall p us ps i u, nth_error us i = Some u ->
  nth_error (random_coin p us) i = Some (Qle_bool u p) /\ (forall q, nth_error ps i = Some q -> nth_error (random_coin_each ps us) i = Some (Qle_bool u q)) /\
  length (random_coin p us) = length us /\ length (random_coin_each ps us) = Nat.min (length us) (length ps).
Proof.
  intros p us ps i u H. unfold random_coin, random_coin_each. rewrite !map_length, combine_length. split; [rewrite nth_error_map, H; reflexivity|]. split; [|split; reflexivity].
  intros q Hq. rewrite nth_error_map. assert (E : nth_error (combine us ps) i = Some (u, q)) by (clear - H Hq; revert us ps H Hq; induction i; intros [|a us] [|b ps] H Hq; try discriminate; cbn in *; [congruence|auto]). rewrite E. reflexivity.
Qed.
Print Assumptions C105_coins.
Example ex_coin : random_coin (1 # 3) [0; 1 # 3; 1 # 2]%Q = [true; true; false] /\ random_coin_each [0; 1; 1 # 4]%Q [1 # 5; 1 # 5; 1 # 3]%Q = [false; true; false].
Proof. split; reflexivity. Qed.
(* Finding: a coin of probability 0 can be true. *)
Theorem C105_zero_refuted : coin 0 0 = true.
Proof. reflexivity. Qed.
Print Assumptions C105_zero_refuted.
