From Coq Require Import Ascii String QArith Qpower Qround Qabs Lqa.
From Verif Require Import Base StrModel StrSpec StrProofs StrProofs2 NumModel NumSpec NumProofs TimeModel TimeSpec TimeProofs
  RealModel RealSpec RealProofs RealProofs2 RealProofs3 RealProofs4 ArgvModel ArgvSpec ArgvProofs SexModel SexSpec SexProofs.
Local Open Scope Z_scope.

(* --- the parts -------------------------------------------------------------------------- *)
Lemma floor_part : forall y, (0 <= y)%Q -> 0 <= Qfloor y /\ (0 <= y - inject_Z (Qfloor y))%Q /\ (y - inject_Z (Qfloor y) < 1)%Q.
Proof.
  intros y H. pose proof (Qfloor_le y). pose proof (Qlt_floor y) as L. rewrite inject_Z_plus in L. change (inject_Z 1) with 1%Q in L.
  split; [|split; lra]. change 0 with (Qfloor 0). now apply Qfloor_resp_le.
Qed.
Lemma parts_of : forall x, 0 <= whole x /\ 0 <= minutes x < 60 /\ (0 <= seconds x)%Q /\ (seconds x < 60)%Q /\
  (Qabs x == inject_Z (whole x) + inject_Z (minutes x) / 60 + seconds x / 3600)%Q.
Proof.
  intros x. destruct (floor_part (Qabs x) (Qabs_nonneg x)) as (A & B & C). fold (whole x) in A, B, C.
  set (r := (Qabs x - inject_Z (whole x))%Q) in *.
  assert (H : (0 <= r * 60)%Q) by lra. destruct (floor_part (r * 60) H) as (D & E & F).
  change (Qfloor (r * 60)) with (minutes x) in D, E, F. split; auto. split; [split; auto|].
  - rewrite Zlt_Qlt. change (inject_Z 60) with 60%Q. lra.
  - unfold seconds. fold r. split; [lra|]. split; [lra|]. unfold r. field.
Qed.
Lemma sign_abs : forall x, (x * inject_Z (signQ x) == Qabs x)%Q.
Proof.
  intros x. unfold signQ. destruct (Qle_bool 0 x) eqn:E.
  - apply Qle_bool_iff in E. rewrite Qabs_pos by auto. cbn. ring.
  - rewrite Qabs_neg; [change (inject_Z (-1)) with (-(1))%Q; ring|]. apply Qlt_le_weak, Qnot_le_lt. intros C. apply Qle_bool_iff in C. congruence.
Qed.
Lemma to_int_floor : forall y z, (0 <= y)%Q -> Qfloor y = z -> z < 2 ^ 63 -> to_int y = Ok z.
Proof.
  intros y z H E L. unfold to_int. rewrite (proj2 (Qle_bool_iff 0 y) H), E. cbv zeta.
  assert (0 <= z) by (destruct (floor_part y H); lia).
  rewrite (proj2 (Z.leb_le (- 2 ^ 63) z)), (proj2 (Z.ltb_lt z (2 ^ 63))) by lia. reflexivity.
Qed.
(* --- the seconds --------------------------------------------------------------------------- *)
Lemma shortest_len : forall d n, writes d n -> shortest d -> n <= 60 -> (List.length d = 1 \/ List.length d = 2)%nat.
Proof.
  intros d n W Sh L. apply writes_iff in W. destruct W as (N & A & E). destruct Sh as [->|(c & r & -> & Nc)]; [auto|].
  change (c :: r) with ([c] ++ r) in E. rewrite value_app, value_one in E. apply all_cons in A. destruct A as [Ac Ar].
  pose proof (value_lt r Ar). pose proof (digit_range c Ac). assert (digit_of c <> 0) by (intros Z0; apply Nc, digit_zero; auto).
  cbn [List.length]. destruct (List.length r) as [|[|k]]; auto. exfalso.
  assert (10 ^ 2 <= 10 ^ Z.of_nat (S (S k))) by (apply Z.pow_le_mono_r; lia). change (10 ^ 2) with 100 in *. nia.
Qed.
Lemma pad_two : forall d n, writes d n -> (List.length d = 1 \/ List.length d = 2)%nat ->
  exists d', (if (List.length d =? 2)%nat then d else "0"%char :: d) = d' /\ writes d' n /\ List.length d' = 2%nat.
Proof.
  intros d n W L. apply writes_iff in W. destruct W as (N & A & E). destruct L as [L|L]; rewrite L; cbn [Nat.eqb]; eexists; (split; [reflexivity|]).
  - split; [|cbn; lia]. apply writes_iff. split; [discriminate|]. split; [apply all_cons; auto|].
    change ("0"%char :: d) with (["0"%char] ++ d). rewrite value_app, value_one. change (digit_of "0"%char) with 0. lia.
  - split; auto. apply writes_iff. auto.
Qed.
Lemma significant_Z : forall n, Z.abs n < 1000000 -> significant 6 (inject_Z n).
Proof. intros n H. exists n, 0. split; [exact H|]. cbn. ring. Qed.
Lemma format_sec_text : forall s, (s == 0)%Q \/ ((1 # 10000) <= s)%Q -> (s < 60)%Q ->
  exists v, ss_text (format_sec s) v /\ closest 6 s v /\ (0 <= v)%Q /\ (v <= 60)%Q.
Proof.
  intros s H L. destruct (to_string_plain_real s) as (v & P & C).
  { destruct H; [left|right]; auto. split; [auto|lra]. }
  exists v.
  assert (U : (v <= 60)%Q).
  { destruct C as [_ C]. specialize (C (inject_Z 60) (significant_Z 60 eq_refl)). change (inject_Z 60) with 60%Q in C.
    rewrite (Qabs_pos (60 - s)) in C by lra. apply Qabs_Qle_condition in C. lra. }
  destruct P as (d & n & W & Sh & P).
  assert (Nn : 0 <= n) by (eapply writes_nonneg; eauto).
  assert (Dd : ~ In "."%char d) by (apply writes_iff in W; destruct W as (_ & A & _); intros I; apply A in I; discriminate).
  unfold format_sec. change (find_first (has ["."%char]) (real_to_string s) (Some 0%nat)) with (find_char "."%char (real_to_string s)).
  rewrite find_charE. destruct P as [[E Ev]|(f & k & E & Wf & _ & Ev)]; rewrite E.
  - rewrite (proj2 (after_none "."%char d) Dd).
    assert (n <= 60) by (rewrite Zle_Qle, <- Ev; exact U).
    destruct (pad_two d n W (shortest_len d n W Sh H0)) as (d' & Ed & W' & L'). split; [|split; auto].
    + exists d', ["0"%char], n, 0. split.
      { rewrite <- Ed. destruct (List.length d =? 2)%nat; reflexivity. }
      split; auto. split; auto. split; [change 0 with (Z.of_nat 0); now constructor|]. rewrite Ev. unfold Qdiv. cbn. ring.
    + split; auto. rewrite Ev. change 0%Q with (inject_Z 0). now rewrite <- Zle_Qle.
  - destruct (after_app "."%char d f Dd) as [-> ->].
    assert (Nk : 0 <= k) by (eapply writes_nonneg; eauto).
    assert (Fp : (0 <= inject_Z k / 10 ^ Z.of_nat (List.length f))%Q).
    { apply Qle_shift_div_l; [apply p10_pos|]. rewrite Qmult_0_l. change 0%Q with (inject_Z 0). now rewrite <- Zle_Qle. }
    assert (Zn : (0 <= inject_Z n)%Q) by (change 0%Q with (inject_Z 0); now rewrite <- Zle_Qle).
    assert (n <= 60) by (rewrite Zle_Qle; change (inject_Z 60) with 60%Q; lra).
    destruct (pad_two d n W (shortest_len d n W Sh H0)) as (d' & Ed & W' & L'). split; [|split; auto].
    + exists d', f, n, k. split; [|auto].
      rewrite <- Ed. destruct (List.length d =? 2)%nat; reflexivity.
    + split; auto. lra.
Qed.
Lemma closest_wd : forall n x y v, (x == y)%Q -> closest n x v -> closest n y v.
Proof. intros n x y v E [A B]. split; auto. intros w W. rewrite <- E. auto. Qed.
Lemma to_sex_spec : forall x, whole x < 2 ^ 63 -> (seconds x == 0)%Q \/ ((1 # 10000) <= seconds x)%Q ->
  exists txt v, to_sex x = Ok txt /\ clock txt (Qle_bool x (-(1))) (whole x) (minutes x) v /\ closest 6 (seconds x) v /\ (0 <= v)%Q /\ (v <= 60)%Q.
Proof.
  intros x L H. destruct (parts_of x) as (Pw & Pm & S0 & S1 & _). unfold to_sex. cbv zeta. pose proof (sign_abs x) as Ea.
  set (y := (x * inject_Z (signQ x))%Q) in *.
  assert (Py : (0 <= y)%Q) by (rewrite Ea; apply Qabs_nonneg).
  rewrite (to_int_floor y (whole x)); auto; [|unfold whole; now apply Qfloor_eq]. cbn [obind].
  assert (Er : ((y - inject_Z (whole x)) * 60 == (Qabs x - inject_Z (whole x)) * 60)%Q) by (rewrite Ea; reflexivity).
  assert (Pr : (0 <= (y - inject_Z (whole x)) * 60)%Q).
  { rewrite Er. destruct (floor_part (Qabs x) (Qabs_nonneg x)) as (_ & B & _). fold (whole x) in B. lra. }
  rewrite (to_int_floor _ (minutes x)); auto; [|unfold minutes; now apply Qfloor_eq|lia]. cbn [obind].
  set (s := (((y - inject_Z (whole x)) * 60 - inject_Z (minutes x)) * 60)%Q).
  assert (Es : (s == seconds x)%Q) by (unfold s, seconds; rewrite Ea; reflexivity).
  destruct (format_sec_text s) as (v & T & C & V0 & V1); [rewrite Es; auto|rewrite Es; auto|].
  eexists _, v. split; [reflexivity|]. split; [|split; [now apply (closest_wd 6 s)|auto]].
  destruct (to_string_spec (whole x * signQ x)) as (dh & Wh & Sh & Eh).
  destruct (pad2_wide (minutes x) [] ltac:(lia)) as (dm & Wm & Lm & Em). rewrite !app_nil_r in Em. unfold pad in Em. cbn [fst] in Wm.
  assert (Sg : signQ x = 1 /\ (0 <= x)%Q \/ signQ x = -1 /\ (x < 0)%Q).
  { unfold signQ. destruct (Qle_bool 0 x) eqn:E; [left; split; auto; now apply Qle_bool_iff|right; split; auto].
    apply Qnot_le_lt. intros X. apply Qle_bool_iff in X. congruence. }
  exists dh, dm, (format_sec s). split; [|split; [|split; [|split; [|split]]]]; auto.
  - rewrite Eh, Em, <- app_assoc. f_equal.
    assert (X : (whole x * signQ x <? 0) = Qle_bool x (-(1))).
    { destruct Sg as [[-> P]|[-> P]].
      - destruct (Z.ltb_spec (whole x * 1) 0); [lia|]. symmetry. destruct (Qle_bool x (-(1))) eqn:E; auto. apply Qle_bool_iff in E. lra.
      - pose proof (Qfloor_le (Qabs x)) as F1. pose proof (Qlt_floor (Qabs x)) as F2. fold (whole x) in F1, F2.
        rewrite Qabs_neg in F1, F2 by lra. destruct (Z.ltb_spec (whole x * -1) 0) as [Z1|Z1]; symmetry.
        + apply Qle_bool_iff. assert (Z2 : (inject_Z 1 <= inject_Z (whole x))%Q) by (rewrite <- Zle_Qle; lia). change (inject_Z 1) with 1%Q in Z2. lra.
        + destruct (Qle_bool x (-(1))) eqn:E; auto. apply Qle_bool_iff in E. exfalso.
          assert (Z2 : whole x = 0) by lia. rewrite Z2 in F2. change (inject_Z (0 + 1)) with 1%Q in F2. lra. }
    now rewrite X.
  - replace (Z.abs (whole x * signQ x)) with (whole x) in Wh; auto. destruct Sg as [[-> _]|[-> _]]; lia.
Qed.
(* --- there and back -------------------------------------------------------------------------- *)
Lemma clock_sexagesimal : forall s neg h m sec, clock s neg h m sec -> sexagesimal s neg h m sec.
Proof.
  intros s neg h m sec (dh & dm & ds & E & Wh & _ & Wm & _ & (d & f & n & k & Ed & _ & Wd & Wf & Ev)). exists dh, dm, ds.
  split; auto. split; auto. split; auto. right. exists d, f, n, k. split; auto.
  split; [apply writes_iff in Wd; destruct Wd as [Wd _]; destruct d; [tauto|discriminate]|]. split; [now right|]. split; [now right|auto].
Qed.
Lemma closest_sec : forall s v, (0 <= s)%Q -> (s < 60)%Q -> closest 6 s v -> (Qabs (v - s) <= 1 # 20000)%Q.
Proof.
  intros s v S0 S1 [_ C].
  (* the multiples of 1/10000 below 60 have six digits *)
  set (k := half_even (s * 10000)).
  assert (B : (Qabs (inject_Z k - s * 10000) <= 1 # 2)%Q) by apply half_even_bounds.
  assert (K : 0 <= k <= 600000) by (split; [apply half_even_mono|apply half_even_mono']; [change (inject_Z 0) with 0%Q|change (inject_Z 600000) with 600000%Q]; lra).
  specialize (C (inject_Z k * (1 # 10000))%Q). eapply Qle_trans; [apply C|].
  - exists k, (-4). split; [change (10 ^ 6) with 1000000; lia|reflexivity].
  - apply Qabs_Qle_condition in B. apply Qabs_Qle_condition. lra.
Qed.
Lemma sex_back : forall x, whole x < 2 ^ 63 -> (seconds x == 0)%Q \/ ((1 # 10000) <= seconds x)%Q -> (0 <= x)%Q \/ (x <= -(1))%Q ->
  exists txt a b c p v, to_sex x = Ok txt /\ split txt [":"%char] = Ok [a; b; c] /\ read_three a b c = Some p /\ hours p = Some v /\
  (Qabs (v - x) <= 1 # 72000000)%Q.
Proof.
  intros x L H Sx. destruct (parts_of x) as (Pw & Pm & S0 & S1 & Ex). destruct (to_sex_spec x L H) as (txt & v & E & T & C & V0 & V1).
  pose proof (clock_sexagesimal _ _ _ _ _ T) as X.
  destruct (read_sexagesimal _ _ _ _ _ X) as (a & b & c & p & w & Sp & R & Hw & Ew).
  - unfold int64. destruct (Qle_bool x (-(1))); lia.
  - unfold int64. lia.
  - apply Qle_lt_trans with 60%Q; [rewrite Qabs_pos; auto|]. unfold double_limit. change 60%Q with (inject_Z 60). rewrite <- Zlt_Qlt. reflexivity.
  - exists txt, a, b, c, p, w. repeat split; auto. pose proof (closest_sec _ _ S0 S1 C) as D.
    rewrite Ew. unfold sex_value.
    assert (Sg : exists f, (if Qle_bool x (-(1)) && negb (whole x =? 0) then -1 else 1) = f /\ (f = 1 \/ f = -1) /\ (x == inject_Z f * Qabs x)%Q).
    { destruct Sx as [Sx|Sx].
      - exists 1. assert (N : Qle_bool x (-(1)) = false) by (destruct (Qle_bool x (-(1))) eqn:Q1; auto; apply Qle_bool_iff in Q1; lra).
        rewrite N. split; auto. split; auto. rewrite Qabs_pos by auto. cbn. ring.
      - exists (-1). rewrite (proj2 (Qle_bool_iff x (-(1))) Sx).
        assert (W1 : 1 <= whole x).
        { unfold whole. rewrite Qabs_neg by lra. change 1 with (Qfloor 1). apply Qfloor_resp_le. lra. }
        destruct (Z.eqb_spec (whole x) 0); [lia|]. split; auto. split; auto. rewrite Qabs_neg by lra. change (inject_Z (-1)) with (-(1))%Q. ring. }
    destruct Sg as (f & Ef & F & Exf). rewrite Ef. clear Ef.
    assert (G : (inject_Z f * (inject_Z (whole x) + inject_Z (minutes x) / 60 + v / 3600) - x == inject_Z f * ((v - seconds x) * (1 # 3600)))%Q).
    { apply Qeq_trans with (inject_Z f * (inject_Z (whole x) + inject_Z (minutes x) / 60 + v / 3600) - inject_Z f * Qabs x)%Q.
      - apply Qplus_comp; [reflexivity|]. apply Qopp_comp. exact Exf.
      - rewrite Ex. field. }
    rewrite G.
    rewrite Qabs_Qmult. assert (Fa : (Qabs (inject_Z f) == 1)%Q) by (destruct F as [->| ->]; reflexivity). rewrite Fa, Qmult_1_l, Qabs_Qmult.
    change (Qabs (1 # 3600)) with (1 # 3600)%Q. lra.
Qed.
