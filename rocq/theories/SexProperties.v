(* C83: sexagesimal coordinates. *)
From Coq Require Import Ascii String QArith Qpower Qround Qabs Lqa.
From Verif Require Import Base StrModel StrSpec NumModel NumSpec NumProofs RealModel RealSpec RealProofs RealProofs2 RealProofs3 RealProofs4
  ArgvModel VecProofs VecProofs2 TimeProofs SexModel SexSpec SexProofs SexProofs2.
Local Open Scope Z_scope.

(* sex2deg() never fails otherwise than by returning false; it returns true exactly when both texts are an
   integer, an integer and a number separated by colons, and both coordinates are NaN otherwise. *)
Theorem C83_accepts : forall sra sdec, exists b ra dec, sex2deg sra sdec = Ok (b, ra, dec) /\
  (b = true <-> well_formed sra /\ well_formed sdec) /\ (b = false -> ra = None /\ dec = None).
Proof. exact sex2deg_total. Qed.
Print Assumptions C83_accepts.
Example C83_accepts_ex : sex2deg (lit "12:30:00") (lit "1:2") = Ok (false, None, None) /\ sex2deg (lit "12:30:00") (lit "1:2.5:3") = Ok (false, None, None) /\
  sex2deg (lit "1:2:3:4") (lit "1:2:3") = Ok (false, None, None) /\ sex2deg (lit " 1:-2 :nan") (lit "0:0:0") = Ok (true, None, Some (0 # 216000)).
Proof. repeat split; vm_compute; reflexivity. Qed.

(* The right ascension is in hours, and the declination in degrees; the sign of the first number applies to
   the three, unless this number is zero. *)
Theorem C83_sex2deg : forall sra sdec n1 h1 m1 s1 n2 h2 m2 s2,
  sexagesimal sra n1 h1 m1 s1 -> sexagesimal sdec n2 h2 m2 s2 ->
  int64 ((if n1 then -1 else 1) * h1) -> int64 m1 -> (Qabs s1 < inject_Z (2 ^ 1024 - 2 ^ 970))%Q ->
  int64 ((if n2 then -1 else 1) * h2) -> int64 m2 -> (Qabs s2 < inject_Z (2 ^ 1024 - 2 ^ 970))%Q ->
  (n1 = true -> h1 <> 0) -> (n2 = true -> h2 <> 0) ->
  exists ra dec, sex2deg sra sdec = Ok (true, Some ra, Some dec) /\
    (ra == 15 * sex_value n1 h1 m1 s1)%Q /\ (dec == sex_value n2 h2 m2 s2)%Q.
Proof.
  intros sra sdec n1 h1 m1 s1 n2 h2 m2 s2 A B A1 A2 A3 B1 B2 B3 Z1 Z2.
  destruct (read_sexagesimal _ _ _ _ _ A A1 A2 A3) as (a & b & c & p & v & Sp & R & Hv & Ev).
  destruct (read_sexagesimal _ _ _ _ _ B B1 B2 B3) as (a' & b' & c' & p' & v' & Sp' & R' & Hv' & Ev').
  exists (v * 15)%Q, v'. unfold sex2deg. rewrite Sp, Sp'. cbn [obind]. rewrite R, R', Hv, Hv'. split; [reflexivity|].
  assert (K : forall n h, (n = true -> h <> 0) -> n && negb (h =? 0) = n).
  { intros n h H. destruct n; auto. destruct (Z.eqb_spec h 0); auto. exfalso. now apply H. }
  rewrite K in Ev, Ev' by auto. split; auto. rewrite Ev. ring.
Qed.
Print Assumptions C83_sex2deg.
Example C83_sex2deg_ex : exists ra dec, sex2deg (lit "12:34:56.5") (lit "-05:15:30") = Ok (true, Some ra, Some dec) /\
  (ra == 188 + (353000 # 480000))%Q /\ (dec == -(5 + (15 # 60) + (30 # 3600)))%Q.
Proof. eexists _, _. split; [vm_compute; reflexivity|]. split; vm_compute; reflexivity. Qed.
(* Finding (astro.hpp:1050-1055): the sign is taken from the first number after its conversion to an integer,
   so that the sign of "-00" is lost: every declination between -1 and 0 degrees is read as its opposite. *)
Theorem C83_sign_refuted : forall m sec sdec, sexagesimal sdec true 0 m sec -> int64 m -> (Qabs sec < inject_Z (2 ^ 1024 - 2 ^ 970))%Q ->
  exists ra dec, sex2deg (lit "0:0:0") sdec = Ok (true, Some ra, Some dec) /\ (dec == - sex_value true 0 m sec)%Q.
Proof.
  intros m sec sdec A A2 A3. destruct (read_sexagesimal _ _ _ _ _ A ltac:(unfold int64; lia) A2 A3) as (a & b & c & p & v & Sp & R & Hv & Ev).
  unfold sex2deg. change (split (lit "0:0:0") [":"%char]) with (Ok (A := list (list ascii)) [lit "0"; lit "0"; lit "0"]). rewrite Sp. cbn [obind].
  change (read_three (lit "0") (lit "0") (lit "0")) with (Some (0, 0, Some (0 # 1))). rewrite R, Hv. cbn [hours option_map].
  eexists _, v. split; [reflexivity|]. rewrite Ev. unfold sex_value. cbn [andb negb Z.eqb]. change (inject_Z (-1)) with (-(1))%Q. change (inject_Z 1) with 1%Q. ring.
Qed.
Print Assumptions C83_sign_refuted.
Example C83_sign_ex : sex2deg (lit "0:0:0") (lit "-00:30:00") = Ok (true, Some (0 # 216000), Some (108000 # 216000)).
Proof. vm_compute. reflexivity. Qed.

(* deg2sex() writes the whole hours or degrees, the minutes with two digits, and the seconds with two digits
   and decimals, rounded to 6 significant digits; unless the seconds are tiny. *)
Theorem C83_deg2sex : forall ra dec, whole (ra / 15) < 2 ^ 63 -> whole dec < 2 ^ 63 ->
  (seconds (ra / 15) == 0)%Q \/ ((1 # 10000) <= seconds (ra / 15))%Q -> (seconds dec == 0)%Q \/ ((1 # 10000) <= seconds dec)%Q ->
  exists sra sdec v w, deg2sex ra dec = Ok (sra, sdec) /\
    clock sra (Qle_bool (ra / 15) (-(1))) (whole (ra / 15)) (minutes (ra / 15)) v /\ closest 6 (seconds (ra / 15)) v /\
    clock sdec (Qle_bool dec (-(1))) (whole dec) (minutes dec) w /\ closest 6 (seconds dec) w.
Proof.
  intros ra dec L1 L2 H1 H2. destruct (to_sex_spec _ L1 H1) as (sra & v & E1 & T1 & C1 & _).
  destruct (to_sex_spec _ L2 H2) as (sdec & w & E2 & T2 & C2 & _). exists sra, sdec, v, w. unfold deg2sex. rewrite E1. cbn [obind]. rewrite E2. auto.
Qed.
Print Assumptions C83_deg2sex.
Example C83_deg2sex_ex : deg2sex (188 + (353000 # 480000)) (-(100 # 7)) = Ok (lit "12:34:56.5", lit "-14:17:08.57143").
Proof. vm_compute. reflexivity. Qed.

(* What deg2sex() writes is read back by sex2deg(), up to 1/20000 of a second, for coordinates that are
   not between -1 and 0, and when the seconds are not tiny. *)
Theorem C83_round_trip : forall ra dec, whole (ra / 15) < 2 ^ 63 -> whole dec < 2 ^ 63 ->
  (seconds (ra / 15) == 0)%Q \/ ((1 # 10000) <= seconds (ra / 15))%Q -> (seconds dec == 0)%Q \/ ((1 # 10000) <= seconds dec)%Q ->
  (0 <= ra)%Q \/ (ra <= -(15))%Q -> (0 <= dec)%Q \/ (dec <= -(1))%Q ->
  exists sra sdec ra' dec', deg2sex ra dec = Ok (sra, sdec) /\ sex2deg sra sdec = Ok (true, Some ra', Some dec') /\
    (Qabs (ra' - ra) <= 15 * (1 # 72000000))%Q /\ (Qabs (dec' - dec) <= 1 # 72000000)%Q.
Proof.
  intros ra dec L1 L2 H1 H2 S1 S2.
  assert (S1' : (0 <= ra / 15)%Q \/ (ra / 15 <= -(1))%Q).
  { destruct S1; [left; apply Qle_shift_div_l|right; apply Qle_shift_div_r]; try reflexivity; lra. }
  destruct (sex_back _ L1 H1 S1') as (sra & a & b & c & p & v & E1 & Sp & R & Hv & D1).
  destruct (sex_back _ L2 H2 S2) as (sdec & a' & b' & c' & p' & v' & E2 & Sp' & R' & Hv' & D2).
  exists sra, sdec, (v * 15)%Q, v'. unfold deg2sex, sex2deg. rewrite E1. cbn [obind]. rewrite E2. cbn [obind]. split; auto. rewrite Sp, Sp'. cbn [obind].
  rewrite R, R', Hv, Hv'. split; [reflexivity|]. split; auto.
  setoid_replace (v * 15 - ra)%Q with (15 * (v - ra / 15))%Q by field. rewrite Qabs_Qmult. change (Qabs 15) with 15%Q.
  apply Qmult_le_l; [reflexivity|auto].
Qed.
Print Assumptions C83_round_trip.
(* the hypotheses hold *)
Example C83_round_trip_ex : let ra := (100 # 7)%Q in let dec := (-(100 # 7))%Q in
  whole (ra / 15) < 2 ^ 63 /\ whole dec < 2 ^ 63 /\ ((1 # 10000) <= seconds (ra / 15))%Q /\ ((1 # 10000) <= seconds dec)%Q /\ (dec <= -(1))%Q /\
  exists sra sdec r, deg2sex ra dec = Ok (sra, sdec) /\ sex2deg sra sdec = Ok r /\ sdec = lit "-14:17:08.57143".
Proof.
  cbv zeta. repeat (split; [vm_compute; (reflexivity || discriminate)|]). do 3 eexists. split; [vm_compute; reflexivity|]. split; [vm_compute; reflexivity|reflexivity].
Qed.
(* Finding (astro.hpp:1084, 1091, 1110-1111): the sign is written with the whole part only: the text of a
   declination between -1 and 0 degrees is the one of its opposite. *)
Theorem C83_lost_sign_refuted : forall dec, (-(1) < dec)%Q -> (dec < 0)%Q ->
  (seconds dec == 0)%Q \/ ((1 # 10000) <= seconds dec)%Q ->
  exists sra sdec w, deg2sex 0 dec = Ok (sra, sdec) /\ clock sdec false 0 (minutes dec) w /\ closest 6 (seconds dec) w.
Proof.
  intros dec A B H.
  assert (W0 : whole dec = 0).
  { unfold whole. apply Qfloor_uniq; rewrite Qabs_neg by lra; [change (inject_Z 0) with 0%Q|change (inject_Z (0 + 1)) with 1%Q]; lra. }
  destruct (C83_deg2sex 0 dec) as (sra & sdec & v & w & E & _ & _ & T & C); auto; [vm_compute; reflexivity|lia|left; vm_compute; reflexivity|].
  exists sra, sdec, w. split; auto. rewrite W0 in T.
  assert (N : Qle_bool dec (-(1)) = false) by (destruct (Qle_bool dec (-(1))) eqn:Q1; auto; apply Qle_bool_iff in Q1; lra).
  rewrite N in T. auto.
Qed.
Print Assumptions C83_lost_sign_refuted.
Example C83_lost_sign_ex : deg2sex 0 (-(1 # 2)) = Ok (lit "0:00:00.0", lit "0:30:00.0") /\ deg2sex 0 (1 # 2) = Ok (lit "0:00:00.0", lit "0:30:00.0").
Proof. split; vm_compute; reflexivity. Qed.
(* Finding (astro.hpp:1093-1108): the seconds are rounded after the minutes are known, and may be 60. *)
Theorem C83_sixty_refuted : exists dec, (0 < dec)%Q /\ (dec < 1)%Q /\ deg2sex 0 dec = Ok (lit "0:00:00.0", lit "0:59:60.0").
Proof. exists (3599999999 # 3600000000)%Q. repeat split. Qed.
Print Assumptions C83_sixty_refuted.
(* Finding (astro.hpp:1093-1108): tiny seconds are written with a power of ten, to which ".0" is added: this is
   not a number, and sex2deg() refuses it. *)
Theorem C83_tiny_refuted : exists dec sra sdec, (0 < dec)%Q /\ deg2sex 0 dec = Ok (sra, sdec) /\ sdec = lit "0:00:01e-05.0" /\
  sex2deg sra sdec = Ok (false, None, None).
Proof. exists (1 # 360000000)%Q. do 2 eexists. split; [reflexivity|]. split; [vm_compute; reflexivity|]. split; [reflexivity|vm_compute; reflexivity]. Qed.
Print Assumptions C83_tiny_refuted.
(* Finding (astro.hpp:1081, 1088): a coordinate that is too large for an integer is undefined behaviour. *)
Theorem C83_range_UB : forall ra dec, 2 ^ 63 <= whole (ra / 15) -> deg2sex ra dec = UB.
Proof.
  intros ra dec H. unfold deg2sex, to_sex. cbv zeta. unfold to_int at 1. pose proof (sign_abs (ra / 15)) as E.
  assert (P : Qle_bool 0 (ra / 15 * inject_Z (signQ (ra / 15))) = true) by (apply Qle_bool_iff; rewrite E; apply Qabs_nonneg).
  rewrite P. cbv zeta. rewrite (Qfloor_eq _ _ E). fold (whole (ra / 15)). destruct (Z.ltb_spec (whole (ra / 15)) (2 ^ 63)); [lia|].
  now rewrite Bool.andb_false_r.
Qed.
Print Assumptions C83_range_UB.

(* The vectorised versions convert each pair of elements, and abort when the sizes differ. *)
Theorem C83_vec : forall sra sdec,
  (List.length sra <> List.length sdec -> sex2deg_vec sra sdec = CheckFail) /\
  (List.length sra = List.length sdec -> exists l, sex2deg_vec sra sdec = Ok l /\
     Forall2 (fun p r => sex2deg (fst p) (snd p) = Ok r) (combine sra sdec) l).
Proof.
  intros sra sdec. unfold sex2deg_vec. split.
  - intros N. apply Nat.eqb_neq in N. now rewrite N.
  - intros E. rewrite (proj2 (Nat.eqb_eq _ _) E). cbn [check obind].
    assert (G : forall n k, (n + k = List.length sra)%nat -> exists l,
      omapl (fun i => a <- oget sra i ;; d <- oget sdec i ;; sex2deg a d) (seq k n) = Ok l /\
      Forall2 (fun p r => sex2deg (fst p) (snd p) = Ok r) (combine (skipn k sra) (skipn k sdec)) l).
    { induction n as [|n IH]; intros k K.
      - exists []. split; [reflexivity|]. rewrite (skipn_all2 sra) by lia. constructor.
      - destruct (nth_error sra k) as [a|] eqn:Ea; [|apply nth_error_None in Ea; lia].
        destruct (nth_error sdec k) as [d|] eqn:Ed; [|apply nth_error_None in Ed; lia].
        destruct (IH (S k)) as (l & El & F); [lia|]. destruct (sex2deg_total a d) as (b & r & q & Es & _).
        exists ((b, r, q) :: l). cbn [seq omapl]. unfold oget at 1 2. rewrite Ea, Ed. cbn [obind]. rewrite Es. cbn [obind]. rewrite El. split; [reflexivity|].
        assert (X : forall A (u : list A) x, nth_error u k = Some x -> skipn k u = x :: skipn (S k) u).
        { clear. induction k as [|k IH]; intros A [|y u] x H; try discriminate; cbn in *; [injection H as ->; auto|now apply IH]. }
        rewrite (X _ _ _ Ea), (X _ _ _ Ed). cbn [combine]. constructor; auto. }
    apply (G (List.length sra) 0%nat). lia.
Qed.
Print Assumptions C83_vec.
Example C83_vec_ex : sex2deg_vec [lit "1:0:0"; lit "x"] [lit "2:0:0"; lit "3:0:0"] = Ok [(true, Some (3240000 # 216000), Some (432000 # 216000)); (false, None, None)] /\
  sex2deg_vec [lit "1:0:0"] [] = CheckFail.
Proof. split; vm_compute; reflexivity. Qed.
