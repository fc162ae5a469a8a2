(* C87: cross matching with buckets on several threads. *)
From Coq Require Import ZifyBool ZifyNat.
From Verif Require Import Base IndexModel VecModel VecProofs ImageModel ImageProofs MatModel MatProofs XmatchModel XmatchProofs3 AsciiProofs6 XbuckModel XbuckSpec XthreadModel XthreadSpec XthreadProofs XthreadProofs2.
Local Open Scope nat_scope.

Ltac start :=
  unfold qxmatch_bucket, qxmatch_threads; cbv zeta;
  destruct (check (_ =? _)); cbn [obind]; try discriminate; destruct (check (_ =? _)); cbn [obind]; try discriminate.

(* Whatever the number of threads, the result is that of a single thread, as long as every
   thread gets at least one source. *)
Theorem C87_same sqrtf ra1 de1 ra2 de2 nth0 self no_mirror thread a1 a2 r :
  (Z.of_nat (length ra1) <= max_ptrs)%Z -> (Z.of_nat (length ra2) <= max_ptrs)%Z ->
  shared (length ra1) thread a1 -> (no_mirror = false -> shared (length ra2) thread a2) ->
  qxmatch_bucket sqrtf ra1 de1 ra2 de2 nth0 self no_mirror = Ok r ->
  qxmatch_threads sqrtf ra1 de1 ra2 de2 nth0 self no_mirror thread a1 a2 = Ok r.
Proof.
  intros B1 B2 S1 S2. start. destruct ((length ra1 =? 0) || (length ra2 =? 0)) eqn:E0; [auto|].
  destruct (mk_field sqrtf ra1 de1 ra2 de2) as [f| | | |]; cbn [obind]; try discriminate.
  destruct (fill f ra1 de1); cbn [obind]; try discriminate. destruct (fill f ra2 de2); cbn [obind]; try discriminate.
  set (rows := Nat.max nth0 1). set (nth_ := if length ra2 <? rows then length ra2 else rows).
  assert (Hnth : 1 <= nth_ <= rows) by (unfold nth_, rows; destruct (Nat.ltb_spec (length ra2) (Nat.max nth0 1)); lia).
  intros H. apply obind_Ok in H as (r1 & E1 & H).
  set (n1 := length ra1) in *. set (n2 := length ra2) in *.
  set (mir := if no_mirror then 0 else n2) in *.
  (* the result of the other direction *)
  assert (exists q, (if self || no_mirror then Ok (empty_res 1 n2 0 true) else search_all sqrtf f ra2 de2 ra1 de1 1 1 false) = Ok q /\
    length (x_id q) = 1 * n2 /\ length (x_d q) = 1 * n2 /\
    r = XRes (x_id r1) (x_d r1) (if no_mirror then [] else x_id q) (if no_mirror then [] else x_d q) /\
    forall t, t < thread -> exists w, (if self || no_mirror then Ok (empty_res 1 n2 0 true)
            else search_range sqrtf f ra2 de2 ra1 de1 1 1 false (first_of a2 t) (last_of n2 thread a2 t)) = Ok w /\ full 1 n2 w /\
      forall i, first_of a2 t <= i < last_of n2 thread a2 t -> col_eq 1 n2 i w q) as (q & _ & Lq1 & Lq2 & Er & Hw).
  { destruct (self || no_mirror) eqn:Em.
    - injection H as <-. exists (empty_res 1 n2 0 true). split; [reflexivity|]. cbn [empty_res x_id x_d].
      rewrite !repeat_length. split; [reflexivity|]. split; [reflexivity|]. split.
      + unfold mir. destruct no_mirror; [reflexivity|]. rewrite Nat.mul_1_l. reflexivity.
      + intros t Ht. eexists. split; [reflexivity|]. split; [split; apply repeat_length|]. intros. apply col_eq_refl.
    - apply orb_false_iff in Em as (_ & ->). apply obind_Ok in H as (q & Eq & [= <-]). exists q. split; [exact Eq|].
      destruct (all_full sqrtf f ra2 de2 ra1 de1 1 1 false q (conj (le_n 1) (le_n 1)) Eq) as ((F1 & F2) & _).
      split; [exact F1|]. split; [exact F2|]. split; [reflexivity|].
      intros t Ht. apply range_ok; [lia|exact Eq|]. apply last_of_le; [apply shared_fair; auto|exact Ht]. }
  destruct (all_full sqrtf f ra1 de1 ra2 de2 rows nth_ self r1 Hnth E1) as ((L1 & L2) & _). fold n1 in L1, L2.
  set (P := fun t (vw : xres * xres) => full rows n1 (fst vw) /\ full 1 n2 (snd vw) /\
      (forall i, first_of a1 t <= i < last_of n1 thread a1 t -> col_eq rows n1 i (fst vw) r1) /\
      (forall i, first_of a2 t <= i < last_of n2 thread a2 t -> col_eq 1 n2 i (snd vw) q)).
  match goal with |- context [omapl ?g _] => destruct (omapl_ex _ _ (fun t => g t) (seq 0 thread)) as (vres & Ev & Fv) end.
  { intros t Ht. apply in_seq in Ht. cbv beta.
    destruct (range_ok sqrtf f ra1 de1 ra2 de2 rows nth_ self r1 Hnth E1 (first_of a1 t) (last_of n1 thread a1 t)) as (v & -> & _).
    { apply last_of_le; [apply shared_fair, S1|lia]. }
    cbn [obind]. destruct (Hw t ltac:(lia)) as (w & -> & _). cbn [obind]. eexists. reflexivity. }
  cbv beta in Ev. rewrite Ev. cbn [obind].
  assert (FP : Forall2 P (seq 0 thread) vres).
  { eapply Forall2_impl_in with (2 := Fv). intros t [v w] Ht E. apply in_seq in Ht. cbv beta in E.
    destruct (range_ok sqrtf f ra1 de1 ra2 de2 rows nth_ self r1 Hnth E1 (first_of a1 t) (last_of n1 thread a1 t)) as (v' & Ev' & G1 & G2).
    { apply last_of_le; [apply shared_fair, S1|lia]. }
    destruct (Hw t ltac:(lia)) as (w' & Ew & G3 & G4).
    rewrite Ev' in E. cbn [obind] in E. rewrite Ew in E. cbn [obind] in E. injection E as <- <-. repeat split; cbn [fst snd]; try apply G1; try apply G3; try (intros; apply G2; assumption); intros; apply G4; assumption. }
  set (bound := fun n a t => if t =? thread then n else first_of a t).
  match goal with |- ofold ?g _ ?s00 = _ =>
    destruct (combine_inv (fun t s => length (x_id s) = rows * n1 /\ length (x_d s) = rows * n1 /\ length (x_rid s) = 1 * mir /\ length (x_rd s) = 1 * mir /\
      (forall k i, k < rows -> i < bound n1 a1 t -> nth_error (x_id s) (k * n1 + i) = nth_error (x_id r1) (k * n1 + i)) /\
      (forall k i, k < rows -> i < bound n1 a1 t -> nth_error (x_d s) (k * n1 + i) = nth_error (x_d r1) (k * n1 + i)) /\
      (no_mirror = false -> forall k i, k < 1 -> i < bound n2 a2 t -> nth_error (x_rid s) (k * n2 + i) = nth_error (x_id q) (k * n2 + i)) /\
      (no_mirror = false -> forall k i, k < 1 -> i < bound n2 a2 t -> nth_error (x_rd s) (k * n2 + i) = nth_error (x_d q) (k * n2 + i)))
      P g thread 0 vres s00) as (s' & E & K1 & K2 & K3 & K4 & K5 & K6 & K7 & K8) end.
  - cbn [x_id x_d x_rid x_rd]. rewrite !repeat_length. rewrite Nat.mul_1_l. repeat (split; [reflexivity|]).
    assert (forall n a, bound n a 0 = 0) as Bz. { intros. unfold bound, first_of. destruct S1 as (? & _). destruct (Nat.eqb_spec 0 thread); lia. }
    rewrite !Bz. repeat split; intros; lia.
  - exact FP.
  - intros t [v w] s Ht (Fv' & Fw & Cv & Cw) (I1 & I2 & I3 & I4 & I5 & I6 & I7 & I8). cbn [fst snd] in *.
    assert (Bt : forall n a, bound n a t = first_of a t) by (intros; unfold bound; destruct (Nat.eqb_spec t thread); [lia|reflexivity]).
    assert (Bs : forall n a, shared n thread a -> bound n a (S t) = last_of n thread a t).
    { intros nn aa Sh. destruct (shared_share nn thread aa t Sh ltac:(lia)) as (_ & Q1 & Q2). unfold bound.
      destruct (Nat.eqb_spec (S t) thread); [symmetry; auto|symmetry; apply Q1; lia]. }
    rewrite Bt in I5, I6. destruct Fv' as (Fv1 & Fv2), Fw as (Fw1 & Fw2).
    destruct (shared_share n1 thread a1 t S1 ltac:(lia)) as (Q & _).
    destruct (copy_step None rows n1 (first_of a1 t) (last_of n1 thread a1 t) (x_id v) (x_id s) (x_id r1) ltac:(lia) B1 Q Fv1 I1) as (id' & -> & Li & Hid).
    { intros k i Hk Hi. apply (Cv i Hi k Hk). } { exact I5. }
    destruct (copy_step None rows n1 (first_of a1 t) (last_of n1 thread a1 t) (x_d v) (x_d s) (x_d r1) ltac:(lia) B1 Q Fv2 I2) as (d' & -> & Ld & Hd).
    { intros k i Hk Hi. apply (Cv i Hi k Hk). } { exact I6. }
    cbn [obind]. destruct no_mirror eqn:Em.
    + eexists. split; [reflexivity|]. cbn [x_id x_d x_rid x_rd]. rewrite !Bs by exact S1. repeat (split; [assumption|]). split; discriminate.
    + specialize (S2 eq_refl). specialize (I7 eq_refl). specialize (I8 eq_refl). rewrite Bt in I7, I8. unfold mir in I3, I4.
      destruct (shared_share n2 thread a2 t S2 ltac:(lia)) as (Q' & _).
      destruct (copy_step None 1 n2 (first_of a2 t) (last_of n2 thread a2 t) (x_id w) (x_rid s) (x_id q) (le_n 1) B2 Q' Fw1 I3) as (ri & -> & Lri & Hri).
      { intros k i Hk Hi. apply (Cw i Hi k Hk). } { exact I7. }
      destruct (copy_step None 1 n2 (first_of a2 t) (last_of n2 thread a2 t) (x_d w) (x_rd s) (x_d q) (le_n 1) B2 Q' Fw2 I4) as (rd & -> & Lrd & Hrd).
      { intros k i Hk Hi. apply (Cw i Hi k Hk). } { exact I8. }
      cbn [obind]. eexists. split; [reflexivity|]. cbn [x_id x_d x_rid x_rd]. rewrite !Bs by assumption. repeat (split; [assumption|]).
      split; intros _; assumption.
  - rewrite E. f_equal. rewrite Er. assert (Be : forall n a, bound n a (0 + thread) = n) by (intros; unfold bound; rewrite Nat.eqb_refl; reflexivity).
    rewrite !Be in *. destruct s' as [si sd sri srd]. cbn [x_id x_d x_rid x_rd] in *. f_equal.
    + apply (cols_all rows n1); assumption.
    + apply (cols_all rows n1); assumption.
    + destruct no_mirror; [destruct sri; [reflexivity|cbn in K3; lia]|]. apply (cols_all 1 n2); auto.
    + destruct no_mirror; [destruct srd; [reflexivity|cbn in K4; lia]|]. apply (cols_all 1 n2); auto.
Qed.
Print Assumptions C87_same.

(* Every thread gets a source if there are at least as many sources as threads, no rounding
   taken into account. *)
Theorem C87_floor n thread : 2 <= thread -> thread <= n -> shared n thread (n / thread).
Proof.
  intros Ht Hn. pose proof (Nat.div_mod_eq n thread) as E. pose proof (Nat.div_le_lower_bound n thread 1 ltac:(lia) ltac:(lia)).
  split; [exact Ht|]. split; [assumption|]. rewrite Nat.mul_sub_distr_r. nia.
Qed.
Print Assumptions C87_floor.

(* catalogues with different numbers of right ascensions and declinations are refused *)
Theorem C87_sizes sqrtf ra1 de1 ra2 de2 nth0 self no_mirror thread a1 a2 :
  length ra1 <> length de1 \/ length ra2 <> length de2 ->
  qxmatch_threads sqrtf ra1 de1 ra2 de2 nth0 self no_mirror thread a1 a2 = CheckFail.
Proof.
  intros H. unfold qxmatch_threads. destruct (Nat.eqb_spec (length ra1) (length de1)); cbn [check obind]; [|reflexivity].
  destruct (Nat.eqb_spec (length ra2) (length de2)); cbn [check obind]; [|reflexivity]. exfalso. destruct H; contradiction.
Qed.
Print Assumptions C87_sizes.

(* Finding: with fewer sources than threads the program stops, although the same call with one
   thread works: the first thread gets no source, and the range 0-_-(0-1) of its results is not
   valid.  This is the case of catalogues of less than 4 sources added to a pool
   (catalog_merge.hpp 194). *)
Theorem C87_idle_aborts sqrtf ra1 de1 ra2 de2 nth0 self no_mirror thread a1 a2 r :
  (Z.of_nat (length ra1) <= max_ptrs)%Z -> (Z.of_nat (length ra2) <= max_ptrs)%Z ->
  2 <= thread -> 0 < length ra1 -> 0 < length ra2 ->
  (thread - 1) * a1 <= length ra1 -> (thread - 1) * a2 <= length ra2 ->
  a1 = 0 \/ (shared (length ra1) thread a1 /\ no_mirror = false /\ a2 = 0) ->
  qxmatch_bucket sqrtf ra1 de1 ra2 de2 nth0 self no_mirror = Ok r ->
  qxmatch_threads sqrtf ra1 de1 ra2 de2 nth0 self no_mirror thread a1 a2 = CheckFail.
Proof.
  intros B1 B2 Ht N1 N2 F1 F2 Hz. start. replace (length ra1 =? 0) with false by lia. replace (length ra2 =? 0) with false by lia. cbn [orb].
  destruct (mk_field sqrtf ra1 de1 ra2 de2) as [f| | | |]; cbn [obind]; try discriminate.
  destruct (fill f ra1 de1); cbn [obind]; try discriminate. destruct (fill f ra2 de2); cbn [obind]; try discriminate.
  set (rows := Nat.max nth0 1). set (nth_ := if length ra2 <? rows then length ra2 else rows).
  assert (Hnth : 1 <= nth_ <= rows) by (unfold nth_, rows; destruct (Nat.ltb_spec (length ra2) (Nat.max nth0 1)); lia).
  intros H. apply obind_Ok in H as (r1 & E1 & H).
  match goal with |- context [omapl ?g _] => destruct (omapl_ex _ _ (fun t => g t) (seq 0 thread)) as (vres & Ev & Fv) end.
  { intros t It. apply in_seq in It. cbv beta.
    destruct (range_ok sqrtf f ra1 de1 ra2 de2 rows nth_ self r1 Hnth E1 (first_of a1 t) (last_of (length ra1) thread a1 t)) as (v & -> & _).
    { apply last_of_le; [exact F1|lia]. }
    cbn [obind]. destruct (self || no_mirror) eqn:Em; [cbn [obind]; eexists; reflexivity|].
    apply obind_Ok in H as (q & Eq & _).
    destruct (range_ok sqrtf f ra2 de2 ra1 de1 1 1 false q (conj (le_n 1) (le_n 1)) Eq (first_of a2 t) (last_of (length ra2) thread a2 t)) as (w & -> & _).
    { apply last_of_le; [exact F2|lia]. }
    cbn [obind]. eexists. reflexivity. }
  cbv beta in Ev. rewrite Ev. cbn [obind].
  destruct thread as [|[|thread]]; [lia|lia|]. cbn [seq] in Fv |- *. inversion Fv as [|t0 [v w] ts vs Ev0 _]; subst.
  cbn [combine ofold x_id x_d x_rid x_rd].
  assert (Z0 : forall n, last_of n (S (S thread)) 0 0 = 0) by reflexivity.
  destruct Hz as [->|(S1 & -> & ->)].
  - change (first_of 0 0) with 0. rewrite Z0. rewrite (copy_none rows (length ra1) (x_id v) _ B1). reflexivity.
  - assert (Hv : full rows (length ra1) v).
    { destruct (range_ok sqrtf f ra1 de1 ra2 de2 rows nth_ self r1 Hnth E1 (first_of a1 0) (last_of (length ra1) (S (S thread)) a1 0)) as (v' & E' & Fu & _).
      { apply last_of_le; [exact F1|lia]. }
      rewrite E' in Ev0. cbn [obind] in Ev0. apply obind_Ok in Ev0 as (w' & _ & [= <- _]). exact Fu. }
    destruct Hv as (V1 & V2). destruct (shared_share (length ra1) (S (S thread)) a1 0 S1 ltac:(lia)) as (Q & _).
    destruct (copy_step None rows (length ra1) (first_of a1 0) (last_of (length ra1) (S (S thread)) a1 0) (x_id v) (repeat None (rows * length ra1)) (x_id v) ltac:(lia) B1 Q V1 (repeat_length _ _)) as (i' & -> & _).
    { reflexivity. } { intros k i _ Hi. unfold first_of in Hi. lia. }
    destruct (copy_step None rows (length ra1) (first_of a1 0) (last_of (length ra1) (S (S thread)) a1 0) (x_d v) (repeat None (rows * length ra1)) (x_d v) ltac:(lia) B1 Q V2 (repeat_length _ _)) as (d' & -> & _).
    { reflexivity. } { intros k i _ Hi. unfold first_of in Hi. lia. }
    cbn [obind]. change (first_of 0 0) with 0. rewrite Z0. rewrite (copy_none 1 (length ra2) (x_id w) _ B2). reflexivity.
Qed.
Print Assumptions C87_idle_aborts.

(* Five sources against four, two matches each: three threads with one source of each catalogue,
   the last thread with three and two. *)
Definition ex_r1 : list Z := [0; 10; 20; 30; 41]%Z.
Definition ex_d1 : list Z := [0; 5; 20; 12; 3]%Z.
Definition ex_r2 : list Z := [39; 1; 22; 9]%Z.
Definition ex_d2 : list Z := [2; 1; 18; 7]%Z.
Example C87_example_same :
  qxmatch_threads Z.sqrt_up ex_r1 ex_d1 ex_r2 ex_d2 2 false false 3 (5 / 3) (4 / 3) =
  qxmatch_bucket Z.sqrt_up ex_r1 ex_d1 ex_r2 ex_d2 2 false false.
Proof. vm_compute. reflexivity. Qed.
Example C87_example_ids : match qxmatch_threads Z.sqrt_up ex_r1 ex_d1 ex_r2 ex_d2 2 false false 3 (5 / 3) (4 / 3) with
  | Ok r => Some (x_id r, x_rid r) | _ => None end =
  Some ([Some 1; Some 3; Some 2; Some 2; Some 0; Some 3; Some 1; Some 3; Some 2; Some 2],
        [Some 4; Some 0; Some 2; Some 1]).
Proof. vm_compute. reflexivity. Qed.
(* the same on six threads *)
Example C87_example_idle : qxmatch_threads Z.sqrt_up ex_r1 ex_d1 ex_r2 ex_d2 2 false false 6 (5 / 6) (4 / 6) = CheckFail.
Proof. vm_compute. reflexivity. Qed.
(* five threads: one for each source of the first catalogue, but not of the second; without the
   mirror this works *)
Example C87_example_mirror : qxmatch_threads Z.sqrt_up ex_r1 ex_d1 ex_r2 ex_d2 2 false false 5 (5 / 5) (4 / 5) = CheckFail /\
  qxmatch_threads Z.sqrt_up ex_r1 ex_d1 ex_r2 ex_d2 2 false true 5 (5 / 5) (4 / 5) = qxmatch_bucket Z.sqrt_up ex_r1 ex_d1 ex_r2 ex_d2 2 false true.
Proof. vm_compute. auto. Qed.
