(* C104: random positions in a region. *)
From Coq Require Import QArith Qround Qfield Lqa Lia.
From Verif Require Import Base IndexModel IndexSpec IndexProofs VecProofs RandModel RandSpec RandProofs RandProofs2.
Local Open Scope nat_scope.

(* Sampling by rejection: on success the result is the accepted ones of the positions drawn, in order,
   none left out, and no run of rejected ones is as long as the limit; on failure the limit was
   reached, for a source that is not the last one filled. *)
Theorem C104_rejection : forall T (genpos : T -> outcome ((Q * Q) * T)) inside, (forall s, exists p s', genpos s = Ok (p, s')) ->
  forall x y nsrc max_iter s, (0 <= max_iter)%Z ->
  exists good x' y' s' l, rejection_sampling x y nsrc max_iter genpos inside s = Ok (good, (x', y'), s') /\
    drawn genpos s l s' /\ length x' = nsrc /\ length y' = nsrc /\
    (good = true -> combine x' y' = kept inside l /\ (forall i k, run inside l i k -> k < draws max_iter)) /\
    (good = false -> exists l0 bad last, l = l0 ++ bad ++ [last] /\ Forall (rejected inside) bad /\ length bad = draws max_iter /\
       length (kept inside l0) < nsrc /\ firstn (length (kept inside l0)) (combine x' y') = kept inside l0).
Proof. intros T genpos inside H x y nsrc max_iter s M. exact (rejection_ok genpos inside H x y nsrc max_iter s M). Qed.
Print Assumptions C104_rejection.
(* the limit is max_iter, and for 0 the count wraps around *)
Theorem C104_limit : forall m, ((0 < m)%Z -> Z.of_nat (draws m) = m) /\ Z.of_nat (draws 0) = two64.
Proof. intros m. unfold draws. split; [intros H; destruct (Z.eqb_spec m 0); [lia|]; apply Z2Nat.id; lia|]. cbn [Z.eqb]. apply Z2Nat.id. unfold two64. lia. Qed.
Print Assumptions C104_limit.

(* positions in a box: as many as asked for, in the region and in the box *)
Theorem C104_box : forall T (randomu : T -> Q * T) nsrc x0 x1 y0 y1 x y inside max_iter s,
  (forall s, (0 <= fst (randomu s))%Q /\ (fst (randomu s) <= 1)%Q) -> (x0 <= x1)%Q -> (y0 <= y1)%Q -> (0 <= max_iter)%Z ->
  exists good x' y' s', uniform_box randomu nsrc [x0; x1] [y0; y1] x y inside max_iter s = Ok (good, (x', y'), s') /\
    (good = true -> length x' = nsrc /\ length y' = nsrc /\
      Forall (fun p => inside (fst p) (snd p) = true /\ (x0 <= fst p)%Q /\ (fst p <= x1)%Q /\ (y0 <= snd p)%Q /\ (snd p <= y1)%Q) (combine x' y')).
Proof.
  intros T randomu nsrc x0 x1 y0 y1 x y inside max_iter s U X Y M. unfold uniform_box. destruct (Nat.eqb_spec nsrc 0) as [->|N].
  { exists true, [], [], s. split; [reflexivity|]. intros _. repeat split. constructor. }
  assert (Tot : forall s, exists p s', box_pos randomu [x0; x1] [y0; y1] s = Ok (p, s')).
  { intros t. unfold box_pos. destruct (randomu t) as [u t1]. cbn [at_ nth_error obind]. destruct (randomu t1) as [v t2]. cbn [at_ nth_error obind]. eauto. }
  destruct (rejection_ok _ inside Tot x y nsrc max_iter s M) as (good & x' & y' & s' & l & E & D & Lx & Ly & G & _). exists good, x', y', s'. split; [exact E|]. intros H. split; [exact Lx|]. split; [exact Ly|]. destruct (G H) as (-> & _).
  assert (B : Forall (fun p => (x0 <= fst p)%Q /\ (fst p <= x1)%Q /\ (y0 <= snd p)%Q /\ (snd p <= y1)%Q) l).
  { clear - D U X Y. induction D as [|s p s1 l s2 E D IH]; constructor; [|exact IH]. unfold box_pos in E. pose proof (U s) as Us. destruct (randomu s) as [u t1]. cbn [at_ nth_error obind] in E. pose proof (U t1) as Ut. destruct (randomu t1) as [v t2]. cbn [at_ nth_error obind] in E. injection E as <- _. cbn [fst snd] in *.
    assert (A : forall w a b, (0 <= w)%Q -> (w <= 1)%Q -> (a <= b)%Q -> (a <= w * (b - a) + a)%Q /\ (w * (b - a) + a <= b)%Q) by (clear; intros; split; nra).
    destruct (A u x0 x1) as [A1 A2]; [tauto|tauto|exact X|]. destruct (A v y0 y1) as [A3 A4]; [tauto|tauto|exact Y|]. auto. }
  destruct (kept_forall inside l _ B) as [A1 A2]. rewrite Forall_forall in *. intros p I. specialize (A1 p I). specialize (A2 p I). split; assumption.
Qed.
Print Assumptions C104_box.
(* positions in a circle: as many as asked for, in the region, and at a point of the circle given by
   two random numbers; without a region always *)
Theorem C104_circle : forall T (randomu : T -> Q * T) polar nsrc x0 y0 r0 x y inside max_iter s, (0 <= max_iter)%Z ->
  (exists good x' y' s', uniform_circle randomu polar nsrc x0 y0 r0 x y inside max_iter s = Ok (good, (x', y'), s') /\
    (good = true -> length x' = nsrc /\ length y' = nsrc /\ Forall (fun p => accepted inside p /\ on_circle randomu polar x0 y0 r0 p) (combine x' y'))) /\
  length (fst (free_circle randomu polar nsrc x0 y0 r0 s)) = nsrc /\ Forall (on_circle randomu polar x0 y0 r0) (fst (free_circle randomu polar nsrc x0 y0 r0 s)).
Proof. intros. split; [apply circle_ok; assumption|apply free_ok]. Qed.
Print Assumptions C104_circle.
(* randpos_power_base gives eta^levels positions *)
Theorem C104_power_base : forall T (randomu : T -> Q * T) polar x0 y0 r0 levels eta lambda s,
  length (fst (power_base randomu polar x0 y0 r0 levels eta lambda s)) = eta ^ levels.
Proof. intros. unfold power_base. rewrite (base_levels_ok randomu polar (fun _ _ _ => true)). cbn [length]. lia. Qed.
Print Assumptions C104_power_base.

Lemma fold_eta eta eta_end levels n (ls : list Z) : (forall k l, nth_error ls k = Some l -> l = Z.of_nat k) -> (Z.of_nat (length ls) < two63 - 2)%Z -> levels = (Z.of_nat (length ls) + 1)%Z ->
  0 < length ls ->
  fold_right (fun l n => (if (wrap64 (l + 2) =? levels)%Z then eta_end else eta) * n) n ls = eta ^ (length ls - 1) * eta_end * n.
Proof.
  intros H B -> P. 
  assert (G : forall ls a, (forall k l, nth_error ls k = Some l -> l = (Z.of_nat a + Z.of_nat k)%Z) -> (Z.of_nat (a + length ls) < two63 - 2)%Z -> 0 < length ls ->
    fold_right (fun l n => (if (wrap64 (l + 2) =? Z.of_nat (a + length ls) + 1)%Z then eta_end else eta) * n) n ls = eta ^ (length ls - 1) * eta_end * n).
  { clear. induction ls as [|l ls IH]; intros a H B P; [cbn in P; lia|]. cbn [fold_right length]. pose proof (H 0 l eq_refl) as Hl.
    assert (W : wrap64 (l + 2) = (l + 2)%Z) by (unfold wrap64; apply Z.mod_small; unfold two63, two64 in *; cbn [length] in B; lia). rewrite W.
    destruct ls as [|m ls].
    - cbn [fold_right length]. destruct (Z.eqb_spec (l + 2) (Z.of_nat (a + 1) + 1)); [cbn; lia|lia].
    - destruct (Z.eqb_spec (l + 2) (Z.of_nat (a + S (length (m :: ls))) + 1)) as [K|_]; [cbn [length] in K; lia|].
      specialize (IH (S a)). replace (a + S (length (m :: ls))) with (S a + length (m :: ls)) by lia. rewrite IH; [|intros k x E; rewrite (H (S k) x E); lia|cbn [length] in *; lia|cbn; lia].
      cbn [length]. replace (S (S (length ls)) - 1) with (S (S (length ls) - 1)) by lia. cbn [Nat.pow]. lia. }
  specialize (G ls 0). cbn [Nat.add] in G. apply G; assumption.
Qed.
(* randpos_power_circle, from one level on: on success there are exactly eta^(levels-1) eta_end
   positions, all in the region; it never reads or writes out of bounds *)
Theorem C104_power : forall T (randomu : T -> Q * T) polar in_region x0 y0 r0 eta eta_end levels max_iter lambda s, (1 <= levels)%Z -> (levels < two63 - 2)%Z ->
  power_circle randomu polar in_region x0 y0 r0 eta eta_end levels max_iter lambda s = CheckFail \/
  exists good new s', power_circle randomu polar in_region x0 y0 r0 eta eta_end levels max_iter lambda s = Ok (good, new, s') /\
    (good = true -> length new = eta ^ Z.to_nat (levels - 1) * eta_end /\ Forall (fun p => in_region (fst p) (snd p) 0%Q = true) new).
Proof.
  intros T randomu polar in_region x0 y0 r0 eta eta_end levels max_iter lambda s H1 H2. unfold power_circle, genpos.
  set (num := if (levels <=? 1)%Z then eta_end else eta). set (rth := if (levels <=? 1)%Z then 0%Q else ((4 # 5) * r0 / lambda)%Q).
  destruct (circle_ok randomu polar num x0 y0 r0 [] [] (fun x y => in_region x y rth) 1000 s ltac:(lia)) as (good & x & y & s1 & E & G). rewrite E. cbn [obind].
  destruct good; [|right; exists false, (combine x y), s1; split; [reflexivity|discriminate]]. destruct (G eq_refl) as (Lx & Ly & F).
  assert (W : wrap64 (levels - 1) = (levels - 1)%Z) by (unfold wrap64; apply Z.mod_small; unfold two63, two64 in *; lia). rewrite W.
  destruct (for_range_n_up (levels - 1)) as (ls & -> & Ll & Hl); [unfold two63 in *; lia|]. cbn [obind].
  destruct (levels_loop randomu polar in_region eta eta_end levels max_iter lambda ls r0 (combine x y) s1) as [[[g n] s2]| | | |] eqn:El.
  - right. exists g, n, s2. split; [reflexivity|]. intros Hg. destruct (loop_count _ _ _ _ _ _ _ _ _ _ _ _ _ _ _ El Hg) as (L & In1 & In2). rewrite combine_length, Lx, Ly, Nat.min_id in L.
    assert (Hls : forall k l, nth_error ls k = Some l -> l = Z.of_nat k).
    { intros k l K. assert (k < length ls) by (apply nth_error_Some; congruence). rewrite Hl in K by assumption. injection K as <-. lia. }
    destruct ls as [|l0 ls0].
    + cbn [length] in Ll. assert (levels = 1)%Z as -> by lia. cbn [Z.leb Z.compare Pos.compare Pos.compare_cont] in num, rth. cbn in L. split; [rewrite L; cbn; unfold num; lia|]. rewrite (In2 eq_refl). eapply Forall_impl; [|exact F]. intros p [A _]. exact A.
    + split.
      * rewrite L, (fold_eta eta eta_end levels num (l0 :: ls0)); [|exact Hls|lia|lia|cbn; lia]. unfold num. destruct (Z.leb_spec levels 1); [cbn [length] in Ll; lia|].
        replace (Z.to_nat (levels - 1)) with (S (length (l0 :: ls0) - 1)) by (cbn [length] in *; lia). cbn [Nat.pow]. lia.
      * assert (Len : length (l0 :: ls0) - 1 < length (l0 :: ls0)) by (cbn; lia). destruct (nth_error (l0 :: ls0) (length (l0 :: ls0) - 1)) as [l|] eqn:K; [|apply nth_error_None in K; lia].
        apply (In1 l); [reflexivity|]. rewrite (Hls _ _ K). unfold wrap64. rewrite Z.mod_small; unfold two63, two64 in *; cbn [length] in *; lia.
  - left. reflexivity.
  - exfalso. revert El. generalize r0 (combine x y) s1. clear. induction ls as [|l ls IH]; intros r c t E; [discriminate|]. cbn [levels_loop] in E. match type of E with context [level _ _ _ ?a ?b ?d ?e ?f ?g] => destruct (level_ok randomu polar in_region a b d e f g) as [(_ & _ & K)|(g' & n & s2 & K & _)] end; rewrite K in E; cbn [obind] in E; [discriminate|]. destruct g'; [eapply IH; exact E|discriminate].
  - exfalso. revert El. generalize r0 (combine x y) s1. clear. induction ls as [|l ls IH]; intros r c t E; [discriminate|]. cbn [levels_loop] in E. match type of E with context [level _ _ _ ?a ?b ?d ?e ?f ?g] => destruct (level_ok randomu polar in_region a b d e f g) as [(_ & _ & K)|(g' & n & s2 & K & _)] end; rewrite K in E; cbn [obind] in E; [discriminate|]. destruct g'; [eapply IH; exact E|discriminate].
  - exfalso. revert El. generalize r0 (combine x y) s1. clear. induction ls as [|l ls IH]; intros r c t E; [discriminate|]. cbn [levels_loop] in E. match type of E with context [level _ _ _ ?a ?b ?d ?e ?f ?g] => destruct (level_ok randomu polar in_region a b d e f g) as [(_ & _ & K)|(g' & n & s2 & K & _)] end; rewrite K in E; cbn [obind] in E; [discriminate|]. destruct g'; [eapply IH; exact E|discriminate].
Qed.
Print Assumptions C104_power.
(* each level: the positions are grouped by cells, a group is within its circle and the region, the
   sizes are the shares of the filling factors rounded up or down, and add up; it stops when no
   cell has any room *)
Theorem C104_level : forall T (randomu : T -> Q * T) polar in_region eta max_iter r1 rth cells s,
  let fill := fst (fills randomu polar in_region r1 rth cells s) in
  let mean := (total fill / inject_Z (Z.of_nat (length cells)))%Q in
  (cells <> [] /\ (total fill == 0)%Q /\ level randomu polar in_region eta max_iter r1 rth cells s = CheckFail) \/
  exists good new s', level randomu polar in_region eta max_iter r1 rth cells s = Ok (good, new, s') /\
    (good = true -> exists counts groups, new = concat groups /\ Forall2 (group randomu polar in_region r1 rth) (combine cells counts) groups /\
       Forall2 (fair eta mean) fill counts /\ whole counts = eta * length cells).
Proof. intros. apply level_ok. Qed.
Print Assumptions C104_level.

(* a generator that goes through given numbers *)
Definition next (l : list Q) : Q * list Q := match l with [] => (0%Q, []) | u :: l => (u, l) end.
Example ex_box : exists x' y' s', uniform_box next 2 [0; 10]%Q [0; 10]%Q [] [] (fun x y => Qle_bool x y) 3 [1 # 2; 1 # 4; 1 # 5; 1 # 2; 0; 1; 1 # 3]%Q = Ok (true, (x', y'), s') /\
  Forall2 Qeq x' [2; 0]%Q /\ Forall2 Qeq y' [5; 10]%Q.
Proof. do 3 eexists. split; [vm_compute; reflexivity|]. split; repeat constructor. Qed.
Definition ex_polar (x y r u v : Q) : Q * Q := (x + r * v, y + r * u * v)%Q.
Example ex_power : exists new s', power_circle next ex_polar (fun x y t => true) 0 0 8 2 3 2%Z 5 2%Q [1 # 2; 1; 1; 1 # 2]%Q = Ok (true, new, s') /\ length new = 6.
Proof. do 2 eexists. split; [vm_compute; reflexivity|reflexivity]. Qed.

(* Finding: the last position drawn is not looked at: with max_iter = 1 a source fails as soon as the
   first position is rejected, even if the second is good; with max_iter = n only n are looked at of
   n+1. *)
Theorem C104_last_refuted : forall T (genpos : T -> outcome ((Q * Q) * T)) inside p q s s1 s2 x y, genpos s = Ok (p, s1) -> genpos s1 = Ok (q, s2) -> rejected inside p -> accepted inside q ->
  exists x' y', rejection_sampling x y 1 1 genpos inside s = Ok (false, (x', y'), s2).
Proof.
  intros T genpos inside p q s s1 s2 x y E1 E2 R A. unfold rejection_sampling. cbn [sample]. rewrite E1. cbn [obind]. change (draws 1) with 1. cbn [attempt]. unfold rejected in R. rewrite R. rewrite E2. cbn [obind]. eauto.
Qed.
Print Assumptions C104_last_refuted.
(* Finding: the option max_iter of randpos_power_circle is not used for the rejection sampling, where
   the limit is always 1000: with one level the option has no effect at all. *)
Theorem C104_option_refuted : forall T (randomu : T -> Q * T) polar in_region x0 y0 r0 eta eta_end m m' lambda s,
  power_circle randomu polar in_region x0 y0 r0 eta eta_end 1 m lambda s = power_circle randomu polar in_region x0 y0 r0 eta eta_end 1 m' lambda s.
Proof. intros. unfold power_circle. reflexivity. Qed.
Print Assumptions C104_option_refuted.
(* Finding: levels = 0 does one level more than levels = 1: range(levels - 1) visits one value. *)
Theorem C104_zero_levels_refuted : forall T (randomu : T -> Q * T) polar in_region x0 y0 r0 eta eta_end max_iter lambda s new s',
  power_circle randomu polar in_region x0 y0 r0 eta eta_end 0 max_iter lambda s = Ok (true, new, s') -> length new = eta * eta_end.
Proof.
  intros T randomu polar in_region x0 y0 r0 eta eta_end max_iter lambda s new s' E. unfold power_circle, genpos in E. cbn [Z.leb Z.compare] in E.
  destruct (circle_ok randomu polar eta_end x0 y0 r0 [] [] (fun x y => in_region x y 0%Q) 1000 s ltac:(lia)) as (good & x & y & s1 & E1 & G). rewrite E1 in E. cbn [obind] in E.
  destruct good; [|discriminate]. destruct (G eq_refl) as (Lx & Ly & _). change (for_range_n (wrap64 (0 - 1))) with (Ok [0%Z]) in E. cbn [obind] in E.
  destruct (loop_count _ _ _ _ _ _ _ _ _ _ _ _ _ _ _ E eq_refl) as (L & _ & _). rewrite combine_length, Lx, Ly, Nat.min_id in L. rewrite L. cbn [fold_right]. change (wrap64 (0 + 2) =? 0)%Z with false. reflexivity.
Qed.
Print Assumptions C104_zero_levels_refuted.
(* Finding: randpos_uniform_box with ranges of fewer than two numbers stops the program only after
   a random number was used, and not at all without sources. *)
Theorem C104_short_range_abort : forall T (randomu : T -> Q * T) x0 ry x y inside max_iter s,
  uniform_box randomu 0 [x0] ry x y inside max_iter s = Ok (true, ([], []), s) /\ uniform_box randomu 1 [x0] ry x y inside max_iter s = CheckFail.
Proof. intros. split; [reflexivity|]. unfold uniform_box, rejection_sampling. cbn [Nat.eqb sample]. unfold box_pos. destruct (randomu s). reflexivity. Qed.
Print Assumptions C104_short_range_abort.
