(* C67: rgen, rgen_step, clamp and sign (math/base.hpp). *)
From Coq Require Import QArith Qabs Lqa Lia.
From Verif Require Import Base GenModel GenSpec GenProofs GenProofs2.
Local Open Scope nat_scope.

(* rgen(i,j,n) lists n equally spaced values from i to j, whenever j - i can be computed in the
   common type of i and j. *)
Theorem C67_rgen_evenly : forall i j n,
  diff_fits i j -> 2 <= n -> (Z.of_nat n < two64)%Z ->
  exists l, rgen i j n = Ok l /\ evenly (val i) (val j) n l.
Proof. intros i j n F N B. apply rgen_ok; [assumption|lia|assumption]. Qed.
Print Assumptions C67_rgen_evenly.

(* ... so both ends are there, in place. *)
Theorem C67_rgen_ends : forall i j n,
  diff_fits i j -> 2 <= n -> (Z.of_nat n < two64)%Z ->
  exists l x y, rgen i j n = Ok l /\ nth_error l 0 = Some x /\ nth_error l (length l - 1) = Some y /\
    (x == val i)%Q /\ (y == val j)%Q.
Proof.
  intros i j n F N B. destruct (C67_rgen_evenly i j n F N B) as [l [R [L H]]].
  destruct (H 0) as [x [X EX]]; [lia|]. destruct (H (n - 1)) as [y [Y EY]]; [lia|].
  exists l, x, y. rewrite L. repeat split; [exact R|exact X|exact Y| |].
  - rewrite EX. change (inject_Z (Z.of_nat 0)) with 0%Q. ring.
  - rewrite EY. replace (Z.of_nat (n - 1)) with (Z.of_nat n - 1)%Z by lia.
    assert ((0 < inject_Z (Z.of_nat n - 1))%Q).
    { apply (Qlt_le_trans _ 1); [reflexivity|]. apply (inj_le 1). lia. }
    field. lra.
Qed.
Print Assumptions C67_rgen_ends.

(* One value: the lower end.  No value: an empty vector (n - 1 wraps around but is not used). *)
Theorem C67_rgen_one : forall i j, rgen i j 1 = Ok [val i].
Proof. intros. unfold rgen. cbn. now rewrite val_double. Qed.
Print Assumptions C67_rgen_one.

Theorem C67_rgen_none : forall i j, diff_fits i j -> rgen i j 0 = Ok [].
Proof.
  intros i j F. destruct (rgen_ok i j 0 F) as [l [R [L _]]]; [lia|reflexivity|].
  rewrite R. now destruct l.
Qed.
Print Assumptions C67_rgen_none.

(* Finding: for a decreasing range of unsigned integers the difference j - i wraps around, and the
   range runs up to j + 2^64 instead of down to j. *)
Theorem C67_rgen_unsigned_decreasing_refuted : forall i j n,
  typed (SU i) -> typed (SU j) -> (j < i)%Z -> 2 <= n -> (Z.of_nat n < two64)%Z ->
  exists l y, rgen (SU i) (SU j) n = Ok l /\ nth_error l (n - 1) = Some y /\
    (y == inject_Z (j + two64))%Q.
Proof.
  intros i j n Ti Tj H N B. cbn [typed] in *.
  destruct (rgen_any (SU i) (SU j) n (SU (j - i + two64))) as [l [R [L G]]]; [lia|exact B| |].
  - unfold s_sub. cbn [kind_of common conv obind]. rewrite (wrap_id i), (wrap_id j) by lia.
    do 2 f_equal. unfold wrap64. rewrite <- (Z.mod_add (j - i) 1 two64) by discriminate.
    rewrite Z.mul_1_l. apply Z.mod_small. lia.
  - destruct (G (n - 1)) as [y [Y EY]]; [lia|]. exists l, y. split; [exact R|]. split; [exact Y|].
    rewrite EY. cbn [val to_double]. replace (Z.of_nat (n - 1)) with (Z.of_nat n - 1)%Z by lia.
    rewrite (inject_Z_plus (j - i) two64), (inject_Z_plus j two64), (inj_sub j i).
    assert ((0 < inject_Z (Z.of_nat n - 1))%Q).
    { apply (Qlt_le_trans _ 1); [reflexivity|]. apply (inj_le 1). lia. }
    set (t := inject_Z (Z.of_nat n - 1)) in *. clearbody t. generalize (inject_Z two64). intro u.
    generalize (inject_Z i) (inject_Z j). intros p q. field. lra.
Qed.
Print Assumptions C67_rgen_unsigned_decreasing_refuted.

(* A step that is not strictly positive is refused. *)
Theorem C67_step_refused : forall i j s, (val s <= 0)%Q -> rgen_step i j s = CheckFail.
Proof. intros i j s H. unfold rgen_step. now rewrite val_double, (qle_true _ _ H). Qed.
Print Assumptions C67_step_refused.

(* rgen_step(i,j,s) for i = j is the single value i. *)
Theorem C67_step_point : forall i j s,
  typed i -> typed j -> typed s -> step_fits i j s -> (0 < val s)%Q -> (val i == val j)%Q ->
  exists x, rgen_step i j s = Ok [x] /\ (x == val i)%Q.
Proof. exact step_same. Qed.
Print Assumptions C67_step_point.

(* Otherwise it starts at i, advances by s towards j, and ends with j exactly.  No value lies beyond
   j.  With a floating point argument the last step is at least s/2 and less than 3s/2; with integers
   only, it is at least s and less than 2s.  (If no whole step fits the range is just {i,j}.) *)
Theorem C67_step_range : forall i j s,
  typed i -> typed j -> typed s -> step_fits i j s -> (0 < val s)%Q -> ~ (val i == val j)%Q ->
  (Qabs (val j - val i) / val s + 2 < inject_Z two64)%Q ->
  exists m l, rgen_step i j s = Ok l /\ stepped (val i) (val j) (val s) m l /\
    let gap := (Qabs (val j - val i) - inject_Z (Z.of_nat m) * val s)%Q in
    (0 < gap)%Q /\
    if is_float i || is_float j || is_float s
    then (gap < (3#2) * val s)%Q /\ (0 < m -> ((1#2) * val s <= gap)%Q)
    else (gap < 2 * val s)%Q /\ (0 < m -> (val s <= gap)%Q).
Proof.
  intros i j s Ti Tj Ts F S E B. destruct (step_differ i j s Ti Tj Ts F S E B) as [m [l H]].
  exists m, l. replace (is_float i || is_float j || is_float s) with (floating i j s); [exact H|].
  destruct i, j, s; reflexivity.
Qed.
Print Assumptions C67_step_range.

(* The range contains both i and j. *)
Theorem C67_step_ends : forall i j s,
  typed i -> typed j -> typed s -> step_fits i j s -> (0 < val s)%Q ->
  (Qabs (val j - val i) / val s + 2 < inject_Z two64)%Q ->
  exists l x y, rgen_step i j s = Ok l /\ nth_error l 0 = Some x /\ nth_error l (length l - 1) = Some y /\
    (x == val i)%Q /\ (y == val j)%Q.
Proof.
  intros i j s Ti Tj Ts F S B. destruct (Qeq_dec (val i) (val j)) as [E|E].
  - destruct (C67_step_point i j s Ti Tj Ts F S E) as [x [R X]].
    exists [x], x, x. repeat split; [exact R|exact X|now rewrite X].
  - destruct (C67_step_range i j s Ti Tj Ts F S E B) as [m [l [R [[L [H [y [Y EY]]]] _]]]].
    destruct (H 0) as [x [X EX]]; [lia|].
    exists l, x, y. rewrite L. replace (m + 2 - 1) with (m + 1) by lia. repeat split; try assumption.
    rewrite EX. change (inject_Z (Z.of_nat 0)) with 0%Q. ring.
Qed.
Print Assumptions C67_step_ends.

(* Finding: the number of values depends on the types of the arguments, not only on their values:
   the quotient is rounded for floating point arguments and truncated for integers. *)
Theorem C67_step_type_dependent_refuted :
  exists i j s i' j' s' l l', (val i == val i' /\ val j == val j' /\ val s == val s')%Q /\
    rgen_step i j s = Ok l /\ rgen_step i' j' s' = Ok l' /\ length l <> length l'.
Proof.
  exists (SI 0), (SI 9), (SI 5), (SF 0), (SF 9), (SF 5).
  eexists _, _. split; [repeat split; reflexivity|]. split; [vm_compute; reflexivity|].
  split; [vm_compute; reflexivity|]. discriminate.
Qed.
Print Assumptions C67_step_type_dependent_refuted.

(* clamp(t,mi,ma) brings t into the interval, for a floating point t with any bounds or three arguments
   of the same type. *)
Theorem C67_clamp : forall t mi ma, typed t -> typed mi -> typed ma ->
  kind_of t = KF \/ same_kind t mi ma ->
  exists r, clamp t mi ma = Ok r /\ kind_of r = kind_of t /\ clamped t mi ma r.
Proof. exact clamp_ok. Qed.
Print Assumptions C67_clamp.

(* ... so the result is always within consistent bounds. *)
Theorem C67_clamp_within : forall t mi ma, typed t -> typed mi -> typed ma ->
  kind_of t = KF \/ same_kind t mi ma -> (val mi <= val ma)%Q ->
  exists r, clamp t mi ma = Ok r /\ (val mi <= val r <= val ma)%Q.
Proof.
  intros t mi ma T1 T2 T3 K M. destruct (clamp_ok t mi ma T1 T2 T3 K) as [r [R [_ [A [B C]]]]].
  exists r; split; [exact R|].
  destruct (Qlt_le_dec (val t) (val mi)) as [X|X]; [rewrite (A X); lra|].
  destruct (Qlt_le_dec (val ma) (val t)) as [Y|Y]; [rewrite B by lra; lra|]. rewrite C by lra. lra.
Qed.
Print Assumptions C67_clamp_within.

(* Finding: with arguments of different types the result can be outside the bounds: a negative bound of
   an unsigned value wraps around, a negative value compared with unsigned bounds becomes the upper
   bound or comes back unchanged, and a fractional bound of an integer is truncated towards zero. *)
Theorem C67_clamp_mixed_refuted :
  clamp (SU 5) (SI (-1)) (SI 10) = Ok (SU (two64 - 1)) /\
  clamp (SI (-5)) (SU 0) (SU 10) = Ok (SI 10) /\
  clamp (SI (-5)) (SU 0) (SU (two64 - 1)) = Ok (SI (-5)) /\
  clamp (SI 3) (SF (7#2)) (SF 10) = Ok (SI 3) /\
  clamp (SI 0) (SF (-10)) (SF (-7#2)) = Ok (SI (-3)).
Proof. repeat split; vm_compute; reflexivity. Qed.
Print Assumptions C67_clamp_mixed_refuted.

(* sign is 1 for zero and above, -1 below. *)
Theorem C67_sign : forall t,
  ((0 <= val t)%Q -> sign t = 1%Z) /\ ((val t < 0)%Q -> sign t = (-1)%Z).
Proof.
  intro t. unfold sign. change (to_double t) with (val t).
  split; intro H.
  - now rewrite (qle_true _ _ H).
  - now rewrite (qle_false 0 (val t) H).
Qed.
Print Assumptions C67_sign.

(* examples *)
Example rgen_down : omap (map Qred) (rgen (SF 3) (SF 1) 5) = Ok [3; 5#2; 2; 3#2; 1]%Q.
Proof. vm_compute. reflexivity. Qed.
Example rgen_mixed : omap (map Qred) (rgen (SI (-3)) (SU 5) 3) = Ok [-3; 1; 5]%Q.
Proof. vm_compute. reflexivity. Qed.
Example rgen_wraps : omap (map Qred) (rgen (SU 5) (SU 3) 2) = Ok [5; inject_Z (3 + two64)]%Q.
Proof. vm_compute. reflexivity. Qed.
Example step_up : omap (map Qred) (rgen_step (SF 0) (SF 9) (SF 5)) = Ok [0; 5; 9]%Q.
Proof. vm_compute. reflexivity. Qed.
Example step_int : omap (map Qred) (rgen_step (SI 0) (SI 9) (SI 5)) = Ok [0; 9]%Q.
Proof. vm_compute. reflexivity. Qed.
Example step_down : omap (map Qred) (rgen_step (SU 9) (SU 2) (SU 3)) = Ok [9; 6; 2]%Q.
Proof. vm_compute. reflexivity. Qed.
Example step_short : omap (map Qred) (rgen_step (SF 0) (SF (1#4)) (SF 1)) = Ok [0; 1#4]%Q.
Proof. vm_compute. reflexivity. Qed.
Example clamp_low : clamp (SI (-7)) (SI (-2)) (SI 4) = Ok (SI (-2)).
Proof. vm_compute. reflexivity. Qed.
