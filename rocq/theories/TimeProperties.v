(* C79: durations as text. *)
From Coq Require Import Ascii String QArith Qround.
From Verif Require Import Base StrModel NumModel NumSpec ArgvModel TimeModel TimeSpec TimeProofs NumProofs.
Local Open Scope Z_scope.

(* From one second, time_str() gives the days, hours, minutes and seconds of the integer number of seconds:
   the fields that are zero are left out, except for the seconds; the first one has no useless zeros, the
   others have two digits. *)
Theorem C79_time_str : forall t, (1 <= t)%Q -> Qfloor t < 2 ^ 64 ->
  exists d h m s txt, 86400 * d + 3600 * h + 60 * m + s = Qfloor t /\ 0 <= d /\ 0 <= h < 24 /\ 0 <= m < 60 /\ 0 <= s < 60 /\
    time_str t = Ok txt /\ fields_text 2 (present [(d, lit "d"); (h, lit "h"); (m, lit "m")] ++ [(s, lit "s")]) txt.
Proof.
  intros t T B. destruct (time_str_fields t T B) as (txt & E & F).
  assert (N : 1 <= Qfloor t) by (change 1 with (Qfloor 1); now apply Qfloor_resp_le).
  exists (Qfloor t / 86400), (Qfloor t mod 86400 / 3600), (Qfloor t mod 3600 / 60), (Qfloor t mod 60), txt.
  split; [clear -N; set (n := Qfloor t) in *; clearbody n; Z.div_mod_to_equations; lia|].
  split; [clear -N; set (n := Qfloor t) in *; clearbody n; Z.div_mod_to_equations; lia|].
  split; [clear -N; set (n := Qfloor t) in *; clearbody n; Z.div_mod_to_equations; lia|].
  split; [clear -N; set (n := Qfloor t) in *; clearbody n; Z.div_mod_to_equations; lia|].
  split; [clear -N; set (n := Qfloor t) in *; clearbody n; Z.div_mod_to_equations; lia|].
  split; [exact E|exact F].
Qed.
Print Assumptions C79_time_str.
Example C79_time_str_ex :
  time_str (90061 # 1) = Ok (lit "1d01h01m01s") /\ time_str (3605 # 1) = Ok (lit "1h05s") /\ time_str (60 # 1) = Ok (lit "1m00s") /\
  time_str (19 # 2) = Ok (lit "9s") /\ time_str (864000 # 1) = Ok (lit "10d00s").
Proof. repeat split; vm_compute; reflexivity. Qed.

(* Below one second, it gives the number of milliseconds, microseconds or nanoseconds, rounded to the closest. *)
Theorem C79_time_str_small : forall t, (0 < t)%Q -> (t < 1)%Q ->
  let value k u := exists n d, time_str t = Ok (d ++ u) /\ writes d n /\ shortest d /\
    (inject_Z n - (1 # 2) <= t * k < inject_Z n + (1 # 2))%Q in
  ((1 # 1000) <= t -> value 1000 (lit "ms"))%Q /\
  ((1 # 1000000) <= t -> t < 1 # 1000 -> value 1000000 (lit "us"))%Q /\
  (t < 1 # 1000000 -> value 1000000000 (lit "ns"))%Q.
Proof.
  intros t P L value.
  assert (R : forall k, (0 < k)%Q -> exists d, to_string (round (t * k)) = d /\ writes d (round (t * k)) /\ shortest d /\
    (inject_Z (round (t * k)) - (1 # 2) <= t * k < inject_Z (round (t * k)) + (1 # 2))%Q).
  { intros k K. unfold round. set (x := (t * k + (1 # 2))%Q). pose proof (Qfloor_le x) as A. pose proof (Qlt_floor x) as B.
    assert (X : (0 <= x)%Q). { unfold x. assert (0 < t * k)%Q by now apply Qmult_lt_0_compat. Lqa.lra. }
    assert (N : 0 <= Qfloor x) by (change 0 with (Qfloor 0); now apply Qfloor_resp_le).
    destruct (to_string_plain (Qfloor x) [] N) as (d & W & S1 & E). cbn [fst snd] in *. rewrite !app_nil_r in E.
    exists d. split; [exact E|]. split; [exact W|]. split; [exact S1|].
    rewrite inject_Z_plus in B. change (inject_Z 1) with 1%Q in B. set (f := inject_Z (Qfloor x)) in *. clearbody f. unfold x in *. split; Lqa.lra. }
  assert (Q : Qle_bool 1 t = false).
  { destruct (Qle_bool 1 t) eqn:E; auto. apply Qle_bool_iff in E. Lqa.lra. }
  assert (Q0 : Qle_bool t 0 = false).
  { destruct (Qle_bool t 0) eqn:E; auto. apply Qle_bool_iff in E. Lqa.lra. }
  assert (Qf : forall a, (t < a)%Q -> Qle_bool a t = false).
  { intros a H. destruct (Qle_bool a t) eqn:E; auto. apply Qle_bool_iff in E. Lqa.lra. }
  unfold value, time_str. rewrite Q, Q0. cbn [negb].
  repeat split; intros.
  - rewrite (proj2 (Qle_bool_iff _ _)) by assumption. destruct (R 1000%Q ltac:(reflexivity)) as (d & E & W & S1 & V).
    exists (round (t * 1000)), d. rewrite E. auto.
  - rewrite (Qf (1 # 1000)), (proj2 (Qle_bool_iff _ _)) by assumption. destruct (R 1000000%Q ltac:(reflexivity)) as (d & E & W & S1 & V).
    exists (round (t * 1000000)), d. rewrite E. auto.
  - rewrite (Qf (1 # 1000)), (Qf (1 # 1000000)) by (try assumption; Lqa.lra). destruct (R 1000000000%Q ltac:(reflexivity)) as (d & E & W & S1 & V).
    exists (round (t * 1000000000)), d. rewrite E. auto.
Qed.
Print Assumptions C79_time_str_small.
Example C79_time_str_small_ex : time_str (1 # 4) = Ok (lit "250ms") /\ time_str (1 # 80000) = Ok (lit "13us").
Proof. split; vm_compute; reflexivity. Qed.
(* Finding (time.hpp:34-35): floor(log10(0)) is converted to int, which is undefined; as for negative
   durations.  A clock that did not advance between two calls of now() gives 0. *)
Theorem C79_zero_UB : forall t, (t <= 0)%Q -> time_str t = UB.
Proof.
  intros t H. unfold time_str. destruct (Qle_bool 1 t) eqn:E; [apply Qle_bool_iff in E; Lqa.lra|]. cbn [negb].
  now rewrite (proj2 (Qle_bool_iff t 0) H).
Qed.
Print Assumptions C79_zero_UB.
(* Finding (time.hpp:36-42): the rounding may reach 1000, without going to the next unit. *)
Theorem C79_thousand_refuted : exists t, (t < 1)%Q /\ time_str t = Ok (lit "1000ms").
Proof. exists (9996 # 10000). split; [reflexivity|vm_compute; reflexivity]. Qed.
Print Assumptions C79_thousand_refuted.

(* seconds_str() gives the seconds, and three digits for each of the smaller units, from the first field that is not
   zero to the nanoseconds. *)
Theorem C79_seconds_str : forall t, (0 <= t)%Q -> Qfloor t < 2 ^ 64 ->
  exists s ms us ns txt, 1000000000 * s + 1000000 * ms + 1000 * us + ns = Qfloor (t * 1000000000) /\
    0 <= s /\ 0 <= ms < 1000 /\ 0 <= us < 1000 /\ 0 <= ns < 1000 /\ seconds_str t = Ok txt /\
    fields_text 3 (from_first [(s, lit "s"); (ms, lit "ms"); (us, lit "us")] ++ [(ns, lit "ns")]) txt.
Proof.
  intros t T B. destruct (seconds_str_fields t T B) as (txt & E & F).
  assert (N : 0 <= Qfloor (t * 1000000000)) by (change 0 with (Qfloor 0); apply Qfloor_resp_le; Lqa.lra).
  set (n := Qfloor (t * 1000000000)) in *.
  exists (n / 1000000000), (n / 1000000 mod 1000), (n / 1000 mod 1000), (n mod 1000), txt.
  split; [clear -N; clearbody n; Z.div_mod_to_equations; lia|].
  split; [clear -N; clearbody n; Z.div_mod_to_equations; lia|].
  split; [clear -N; clearbody n; Z.div_mod_to_equations; lia|].
  split; [clear -N; clearbody n; Z.div_mod_to_equations; lia|].
  split; [clear -N; clearbody n; Z.div_mod_to_equations; lia|].
  split; [exact E|exact F].
Qed.
Print Assumptions C79_seconds_str.
Example C79_seconds_str_ex :
  seconds_str (10005 # 1000) = Ok (lit "10s005ms000us000ns") /\ seconds_str (1 # 20) = Ok (lit "50ms000us000ns") /\
  seconds_str 0 = Ok (lit "0ns") /\ seconds_str (7 # 1000000000) = Ok (lit "7ns").
Proof. repeat split; vm_compute; reflexivity. Qed.
(* A negative duration, or one too large for std::size_t, is undefined. *)
Theorem C79_seconds_range_UB : forall t, (t < 0)%Q \/ 2 ^ 64 <= Qfloor t -> seconds_str t = UB.
Proof.
  intros t H. unfold seconds_str. assert (E : to_size (floorq t) = UB); [|now rewrite E].
  unfold to_size, floorq. destruct H as [H|H].
  - assert (F : Qfloor t < 0).
    { assert (A := Qfloor_le t). apply Qle_lt_trans with (z := 0%Q) in A; auto. change 0%Q with (inject_Z 0) in A. now rewrite <- Zlt_Qlt in A. }
    assert (B : Qle_bool 0 (inject_Z (Qfloor t)) = false).
    { destruct (Qle_bool 0 (inject_Z (Qfloor t))) eqn:E; auto. apply Qle_bool_iff in E. change 0%Q with (inject_Z 0) in E.
      rewrite <- Zle_Qle in E. lia. }
    rewrite B. cbv zeta. rewrite <- inject_Z_opp, Qfloor_Z. rewrite (proj2 (Z.leb_gt 0 (- - Qfloor t))) by lia. reflexivity.
  - assert (B : Qle_bool 0 (inject_Z (Qfloor t)) = true).
    { apply Qle_bool_iff. change 0%Q with (inject_Z 0). rewrite <- Zle_Qle. lia. }
    rewrite B. cbv zeta. rewrite Qfloor_Z. rewrite (proj2 (Z.ltb_ge (Qfloor t) (2 ^ 64))) by lia. now rewrite Bool.andb_false_r.
Qed.
Print Assumptions C79_seconds_range_UB.
