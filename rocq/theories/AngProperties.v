(* Theorems on the angular correlation angcorrel() (C108). *)
From Coq Require Import QArith Lia Lqa.
From Verif Require Import Base HistModel HistSpec AngModel AngSpec AngProofs.
Local Open Scope nat_scope.

Definition q (n : nat) : Q := inject_Z (Z.of_nat n).
Lemma q_neq0 n : 0 < n -> ~ (q n == 0)%Q.
Proof. intros H E. unfold q, Qeq, inject_Z in E. cbn [Qnum Qden] in E. lia. Qed.
Lemma q_neq1 n : n <> 1 -> ~ (q n - 1 == 0)%Q.
Proof. intros H E. assert (E' : (q n == 1)%Q) by lra. unfold q, Qeq, inject_Z in E'. cbn [Qnum Qden] in E'. lia. Qed.
Lemma estimate_ok n nr dd dr rr : 2 <= n -> 0 < rr -> exists w, estimate n nr dd dr rr = Some w /\
  (w == (q dd * (q nr * (q nr - 1)) / (q n * (q n - 1)) - 2 * (q dr * q nr / q n) + q rr) / q rr)%Q.
Proof.
  intros Hn Hr. unfold estimate, norm2, norm1, qdiv. change qn with q.
  pose proof (q_neq0 n ltac:(lia)) as N0. pose proof (q_neq1 n ltac:(lia)) as N1. pose proof (q_neq0 rr Hr) as R0.
  assert (E0 : Qeq_bool (q n) 0 = false) by (destruct (Qeq_bool (q n) 0) eqn:E; [apply Qeq_bool_iff in E; contradiction|reflexivity]).
  assert (E1 : Qeq_bool (q n - 1) 0 = false) by (destruct (Qeq_bool (q n - 1) 0) eqn:E; [apply Qeq_bool_iff in E; contradiction|reflexivity]).
  assert (E2 : Qeq_bool (q rr) 0 = false) by (destruct (Qeq_bool (q rr) 0) eqn:E; [apply Qeq_bool_iff in E; contradiction|reflexivity]).
  rewrite E0, E1, E2. eexists. split; [reflexivity|]. field. auto.
Qed.
Lemma estimate_none n nr dd dr rr : n < 2 \/ rr = 0 -> estimate n nr dd dr rr = None.
Proof.
  intros H. unfold estimate, norm2, norm1, qdiv. destruct (Qeq_bool (qn n) 0) eqn:E0; [reflexivity|]. destruct (Qeq_bool (qn n - 1) 0) eqn:E1; [reflexivity|].
  destruct H as [H| ->]; [|destruct (Qeq_bool (qn 0) 0) eqn:E; [reflexivity|discriminate]]. destruct n as [|[|n]]; [discriminate|discriminate|lia].
Qed.

Section Ang.
Context {C : Type}.
Variable part : nat -> (option Q -> bool) -> list (option Q) -> list (option Q) * list (option Q).
Variable angdist : C * C -> C * C -> option Q.
Hypothesis HP : partitions part.

(* ---- C108: angcorrel(ra, dec, rra, rdec, bins) ---- *)
(* for n sources and nr random positions, one number per bin: with DD, DR and RR the numbers of pairs
   source-source, source-random and random-random with a separation in the bin (both orders, and with
   itself), DD nr (nr-1)/(n (n-1)) - 2 DR nr/n + RR, divided by RR; not a finite number if there are fewer
   than two sources or if RR is 0 *)
Theorem C108_estimator dims rdims ra dec rra rdec bins : contiguous bins -> length ra = length dec -> length rra = length rdec ->
  exists w, angcorrel part angdist dims dims rdims rdims ra dec rra rdec 2 bins = Ok w /\ length w = length bins /\
    forall i lo hi, nth_error bins i = Some (lo, hi) ->
      let s := combine ra dec in let r := combine rra rdec in let n := length s in let nr := length r in
      let DD := pairs angdist lo hi s s in let DR := pairs angdist lo hi s r in let RR := pairs angdist lo hi r r in
      exists wi, nth_error w i = Some wi /\
        (2 <= n -> 0 < RR -> exists x, wi = Some x /\
           (x == (q DD * (q nr * (q nr - 1)) / (q n * (q n - 1)) - 2 * (q DR * q nr / q n) + q RR) / q RR)%Q) /\
        (n < 2 \/ RR = 0 -> wi = None).
Proof.
  intros K L1 L2. rewrite (angcorrel_ok part angdist HP _ _ _ _ _ _ bins K L1 L2). eexists. split; [reflexivity|]. split; [apply map_length|].
  intros i lo hi B. cbv zeta. rewrite nth_error_map, B. cbn [option_map fst snd]. eexists. split; [reflexivity|].
  rewrite !combine_length, <- L1, <- L2, !Nat.min_id. split.
  - intros Hn Hr. apply estimate_ok; assumption.
  - apply estimate_none.
Qed.

(* positions of different dimensions are refused *)
Theorem C108_dims_abort dra ddec drra drdec ra dec rra rdec d0 bins : dra <> ddec \/ drra <> drdec ->
  angcorrel part angdist dra ddec drra drdec ra dec rra rdec d0 bins = CheckFail.
Proof.
  intros H. unfold angcorrel. destruct (list_eq_dec Nat.eq_dec dra ddec); [|reflexivity]. destruct (list_eq_dec Nat.eq_dec drra drdec); [|reflexivity]. destruct H; contradiction.
Qed.

(* Finding: with as many pairs in a bin as for no correlation (DD/(n(n-1)), DR/(n nr) and RR/(nr(nr-1)) the
   same) the estimate is not 0 but -2/(nr-1): DR is scaled by nr/n, not by (nr-1)/n *)
Theorem C108_no_correlation_refuted dims rdims ra dec rra rdec bins i lo hi : contiguous bins -> length ra = length dec -> length rra = length rdec ->
  nth_error bins i = Some (lo, hi) ->
  let s := combine ra dec in let r := combine rra rdec in let n := length s in let nr := length r in
  2 <= n -> 2 <= nr -> 0 < pairs angdist lo hi r r ->
  pairs angdist lo hi s s * (nr * (nr - 1)) = pairs angdist lo hi r r * (n * (n - 1)) ->
  pairs angdist lo hi s r * (nr * (nr - 1)) = pairs angdist lo hi r r * (n * nr) ->
  exists w x, angcorrel part angdist dims dims rdims rdims ra dec rra rdec 2 bins = Ok w /\ nth_error w i = Some (Some x) /\ (x == - 2 / (q nr - 1))%Q.
Proof.
  intros K L1 L2 B s r n nr Hn Hr P E1 E2. destruct (C108_estimator dims rdims ra dec rra rdec bins K L1 L2) as (w & Ew & _ & H). destruct (H i lo hi B) as (wi & Ni & F & _).
  fold s r n nr in F. destruct (F Hn P) as (x & -> & Ex). exists w, x. split; [exact Ew|]. split; [exact Ni|]. rewrite Ex. clear - Hn Hr P E1 E2.
  set (DD := pairs angdist lo hi s s) in *. set (DR := pairs angdist lo hi s r) in *. set (RR := pairs angdist lo hi r r) in *. clearbody DD DR RR n nr.
  assert (Q1 : (q DD * (q nr * (q nr - 1)) == q RR * (q n * (q n - 1)))%Q).
  { unfold q. replace (inject_Z (Z.of_nat nr) - 1)%Q with (inject_Z (Z.of_nat nr - 1)) by (unfold Qminus, Qplus, inject_Z, Qopp; cbn; f_equal; lia). replace (inject_Z (Z.of_nat n) - 1)%Q with (inject_Z (Z.of_nat n - 1)) by (unfold Qminus, Qplus, inject_Z, Qopp; cbn; f_equal; lia).
    rewrite <- !inject_Z_mult. apply inject_Z_injective. lia. }
  assert (Q2 : (q DR * (q nr * (q nr - 1)) == q RR * (q n * q nr))%Q).
  { unfold q. replace (inject_Z (Z.of_nat nr) - 1)%Q with (inject_Z (Z.of_nat nr - 1)) by (unfold Qminus, Qplus, inject_Z, Qopp; cbn; f_equal; lia). rewrite <- !inject_Z_mult. apply inject_Z_injective. lia. }
  pose proof (q_neq0 n ltac:(lia)) as N0. pose proof (q_neq1 n ltac:(lia)) as N1. pose proof (q_neq0 nr ltac:(lia)) as M0. pose proof (q_neq1 nr ltac:(lia)) as M1. pose proof (q_neq0 RR P) as R0.
  rewrite Q1. assert (Q3 : (q DR * q nr == q RR * (q n * q nr) / (q nr - 1))%Q) by (rewrite <- Q2; field; exact M1). rewrite Q3. field. auto.
Qed.
End Ang.
Print Assumptions C108_estimator.
Print Assumptions C108_dims_abort.
Print Assumptions C108_no_correlation_refuted.

(* pairs of a source with itself do not count in a bin of separations above 0 *)
Theorem C108_pairs_above_zero {P} (dist : P -> P -> option Q) lo hi (a : list P) : (0 < lo)%Q -> (forall x, In x a -> exists d, dist x x = Some d /\ (d == 0)%Q) ->
  pairs dist lo hi a a = distinct_pairs dist lo hi a.
Proof.
  intros L H. rewrite (pairs_self dist lo hi a false); [lia|]. intros x I. destruct (H x I) as (d & -> & E). unfold within. destruct (Qle_bool lo d) eqn:B; [|reflexivity]. apply Qle_bool_iff in B. lra.
Qed.
Print Assumptions C108_pairs_above_zero.
(* Finding: in a bin that starts at 0 each source counts as a pair with itself, in DD and in RR *)
Theorem C108_self_pairs_refuted {P} (dist : P -> P -> option Q) lo hi (a : list P) : (lo <= 0)%Q -> (0 < hi)%Q -> (forall x, In x a -> exists d, dist x x = Some d /\ (d == 0)%Q) ->
  pairs dist lo hi a a = distinct_pairs dist lo hi a + length a.
Proof.
  intros L U H. rewrite (pairs_self dist lo hi a true); [reflexivity|]. intros x I. destruct (H x I) as (d & -> & E). unfold within. apply Bool.andb_true_iff. split; [apply Qle_bool_iff; lra|].
  apply Bool.negb_true_iff. destruct (Qle_bool hi d) eqn:B; [|reflexivity]. apply Qle_bool_iff in B. lra.
Qed.
Print Assumptions C108_self_pairs_refuted.

(* on a line: sources at 0, 1 and 3, random positions at 0, 1, 2 and 3 *)
Definition the_part : nat -> (option Q -> bool) -> list (option Q) -> list (option Q) * list (option Q) := fun _ p l => (filter p l, filter (fun x => negb (p x)) l).
Definition line (a b : Z * Z) : option Q := Some (inject_Z (Z.abs (fst a - fst b))).
Example ex_ang : match angcorrel the_part line [3] [3] [4] [4] [0; 1; 3]%Z [0; 0; 0]%Z [0; 1; 2; 3]%Z [0; 0; 0; 0]%Z 2 [(0, 1); (1, 2); (2, 4)]%Q with
  | Ok [Some a; Some b; Some c] => (a == 1 # 2 /\ b == - (1 # 9) /\ c == 1 # 9)%Q | _ => False end.
Proof. vm_compute. auto. Qed.
Example ex_ang_one : angcorrel the_part line [1] [1] [2] [2] [0]%Z [0]%Z [0; 1]%Z [0; 0]%Z 2 [(0, 1)]%Q = Ok [None].
Proof. reflexivity. Qed.
