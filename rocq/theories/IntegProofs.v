From Coq Require Import ZifyBool QArith Lqa Qminmax.
From Verif Require Import Base VecProofs VecProofs2 OrderModel OrderSpec OrderProofs OrderProofs2 OrderProofs3
  ReduceSpec ReduceProofs ReduceProofs2 ReduceProofs3 InterpModel InterpSpec InterpProofs IntegModel IntegSpec.
Local Open Scope nat_scope.

Definition at_seg {A} (f : A -> Q) (l : list A) (k : nat) : Q :=
  match nth_error l k with Some s => f s | None => 0%Q end.
Lemma sum_with_qs A (f : A -> Q) l : sum_with f l = qs (at_seg f l) (seq 0 (length l)).
Proof.
  unfold qs, at_seg. rewrite (map_nth_seq _ _ (fun o => match o with Some s => f s | None => 0%Q end)).
  unfold sum_with, qsum. induction l as [|a l IH]; [reflexivity|]. cbn [fold_right map]. rewrite IH. reflexivity.
Qed.

Lemma nth_tl A (l : list A) k : nth_error (tl l) k = nth_error l (k + 1).
Proof. rewrite Nat.add_1_r. destruct l; [destruct k; reflexivity|reflexivity]. Qed.

Lemma nth_segments x y k xa xb ya yb :
  nth_error x k = Some xa -> nth_error x (k + 1) = Some xb -> nth_error y k = Some ya -> nth_error y (k + 1) = Some yb ->
  nth_error (segments (combine x y)) k = Some ((xa, ya), (xb, yb)).
Proof.
  intros H1 H2 H3 H4. unfold segments. rewrite nth_combine, nth_tl, !nth_combine, H1, H2, H3, H4. reflexivity.
Qed.
Lemma segments_len l : length (segments l) = length l - 1.
Proof. unfold segments. rewrite combine_length. destruct l; cbn [length tl]; lia. Qed.
Lemma segs_len x y : length x = length y -> length (segments (combine x y)) = length x - 1.
Proof. intros H. rewrite segments_len, combine_length. lia. Qed.

Lemma four_nodes (x y : list Q) k : length x = length y -> k + 1 < length x ->
  exists xa xb ya yb, nth_error x k = Some xa /\ nth_error x (k + 1) = Some xb /\
    nth_error y k = Some ya /\ nth_error y (k + 1) = Some yb /\
    oget x k = Ok xa /\ oget x (k + 1) = Ok xb /\ oget y k = Ok ya /\ oget y (k + 1) = Ok yb.
Proof.
  intros L H. destruct (oget_in _ x k ltac:(lia)) as (xa & E1 & N1). destruct (oget_in _ x (k + 1) ltac:(lia)) as (xb & E2 & N2).
  destruct (oget_in _ y k ltac:(lia)) as (ya & E3 & N3). destruct (oget_in _ y (k + 1) ltac:(lia)) as (yb & E4 & N4).
  exists xa, xb, ya, yb. auto 10.
Qed.

Lemma len_pos A (l : list A) : l <> [] -> exists n, length l = S n.
Proof. destruct l as [|a l]; [congruence|]. intros _. exists (length l). reflexivity. Qed.

Section Grid.
Variables (x y : list Q).
Hypothesis L : length x = length y.

Notation T := (at_seg trap (segments (combine x y))).

Lemma trapezoid_ok k : k + 1 < length x -> exists t, trapezoid x y k (k + 1) = Ok t /\ (t == T k)%Q.
Proof.
  intros H. destruct (four_nodes x y k L H) as (xa & xb & ya & yb & N1 & N2 & N3 & N4 & E1 & E2 & E3 & E4).
  unfold trapezoid. rewrite E4. cbn [obind]. rewrite E3. cbn [obind]. rewrite E2. cbn [obind]. rewrite E1. cbn [obind].
  eexists. split; [reflexivity|]. unfold at_seg. rewrite (nth_segments x y k _ _ _ _ N1 N2 N3 N4). unfold trap. field.
Qed.

Lemma trap_fold : forall m s r, s + m < length x ->
  exists r', ofold (fun r i => t <- trapezoid x y i (i + 1) ;; Ok (r + t)%Q) (seq s m) r = Ok r' /\
    (r' == r + qs T (seq s m))%Q.
Proof.
  induction m as [|m IH]; intros s r H.
  - exists r. split; [reflexivity|]. change (qs T (seq s 0)) with 0%Q. ring.
  - cbn [seq ofold]. destruct (trapezoid_ok s ltac:(lia)) as (t & E & V). rewrite E. cbn [obind].
    destruct (IH (S s) (r + t)%Q ltac:(lia)) as (r' & E' & V'). exists r'. split; [exact E'|].
    rewrite V', qs_cons, V. ring.
Qed.
Lemma trap_fold_back : forall m s r, s + m < length x ->
  exists r', ofold (fun r i => t <- trapezoid x y (i - 1) i ;; Ok (r + t)%Q) (seq (S s) m) r = Ok r' /\
    (r' == r + qs T (seq s m))%Q.
Proof.
  induction m as [|m IH]; intros s r H.
  - exists r. split; [reflexivity|]. change (qs T (seq s 0)) with 0%Q. ring.
  - cbn [seq ofold]. destruct (trapezoid_ok s ltac:(lia)) as (t & E & V).
    rewrite Nat.add_1_r in E. replace (S s - 1) with s by lia. rewrite E. cbn [obind].
    destruct (IH (S s) (r + t)%Q ltac:(lia)) as (r' & E' & V'). exists r'. split; [exact E'|].
    rewrite V', qs_cons, V. ring.
Qed.

Lemma integrate_ok : x <> [] -> exists r, integrate x y = Ok r /\ (r == trap_sum x y)%Q.
Proof.
  intros H. unfold integrate. rewrite (proj2 (Nat.eqb_eq _ _) L). cbn [check obind].
  destruct (len_pos _ x H) as (n & Ln). rewrite Ln. cbn [from_one]. replace (S n - 1) with n by lia.
  destruct (trap_fold_back n 0 0%Q ltac:(lia)) as (r & E & V). exists r. split; [exact E|].
  rewrite V. unfold trap_sum. rewrite sum_with_qs, segs_len by exact L. rewrite Ln. cbn [Nat.sub]. rewrite Nat.sub_0_r. ring.
Qed.

Lemma cumul_loop : forall m s r dr, s + m < length x -> length dr = length x ->
  exists r' dr', ofold (fun '(r, dr) i =>
      t <- trapezoid x y (i - 1) i ;;
      dr <- oset dr i (r + t)%Q ;; Ok ((r + t)%Q, dr)) (seq (S s) m) (r, dr) = Ok (r', dr') /\ length dr' = length x /\
    (forall i, i <= s -> nth_error dr' i = nth_error dr i) /\
    (forall i, s < i <= s + m -> exists v, nth_error dr' i = Some v /\ (v == r + qs T (seq s (i - s)))%Q) /\
    (forall i, s + m < i -> nth_error dr' i = nth_error dr i).
Proof.
  induction m as [|m IH]; intros s r dr H LD.
  - exists r, dr. split; [reflexivity|]. split; [exact LD|]. split; [auto|]. split; [intros; lia|auto].
  - cbn [seq ofold]. destruct (trapezoid_ok s ltac:(lia)) as (t & E & V).
    rewrite Nat.add_1_r in E. replace (S s - 1) with s by lia. rewrite E. cbn [obind].
    unfold oset. destruct (Nat.ltb_spec (S s) (length dr)); [|lia]. cbn [obind].
    destruct (IH (S s) (r + t)%Q (upd dr (S s) (r + t)%Q) ltac:(lia)) as (r' & dr' & E' & L' & A & B & C).
    { rewrite upd_length. exact LD. }
    exists r', dr'. split; [exact E'|]. split; [exact L'|]. split; [|split].
    + intros i Hi. rewrite A by lia. apply nth_error_upd_other. lia.
    + intros i Hi. destruct (Nat.eq_dec i (S s)) as [->|Hn].
      * rewrite A by lia. rewrite nth_error_upd_same by lia. exists (r + t)%Q. split; [reflexivity|].
        replace (S s - s) with 1 by lia. cbn [seq]. rewrite qs_cons, V. change (qs T []) with 0%Q. ring.
      * destruct (B i ltac:(lia)) as (v & Nv & Vv). exists v. split; [exact Nv|].
        rewrite Vv, V. replace (i - s) with (S (i - S s)) by lia. cbn [seq]. rewrite qs_cons. ring.
    + intros i Hi. rewrite C by lia. apply nth_error_upd_other. lia.
Qed.

Lemma nth_error_repeat A (a : A) n i : i < n -> nth_error (repeat a n) i = Some a.
Proof. revert i; induction n as [|n IH]; intros [|i] H; simpl; try lia; [reflexivity|]. apply IH. lia. Qed.

Lemma cumul_ok : x <> [] -> exists dr, cumul_xy x y = Ok dr /\ length dr = length x /\
  forall i, i < length x -> exists v, nth_error dr i = Some v /\ (v == sum_with trap (firstn i (segments (combine x y))))%Q.
Proof.
  intros H. unfold cumul_xy. rewrite (proj2 (Nat.eqb_eq _ _) L). cbn [check obind].
  destruct (len_pos _ x H) as (n & Ln). rewrite Ln. cbn [from_one]. replace (S n - 1) with n by lia.
  destruct (cumul_loop n 0 0%Q (repeat 0%Q (length y)) ltac:(lia)) as (r' & dr & E & LD & A & B & _).
  { rewrite repeat_length. auto. }
  rewrite E. cbn [omap obind snd]. exists dr. split; [reflexivity|]. split; [lia|]. intros i Hi.
  assert (G : forall k, k <= length (segments (combine x y)) ->
    sum_with trap (firstn k (segments (combine x y))) = qs T (seq 0 k)).
  { intros k Hk. rewrite sum_with_qs, firstn_length. rewrite Nat.min_l by exact Hk. apply qs_ext.
    intros j Hj. apply in_seq in Hj. unfold at_seg. rewrite <- (firstn_skipn k (segments (combine x y))) at 2.
    rewrite nth_error_app1; [reflexivity|]. rewrite firstn_length. lia. }
  rewrite G by (rewrite segs_len by exact L; lia).
  destruct (Nat.eq_dec i 0) as [->|Hn].
  - exists 0%Q. rewrite A by lia. rewrite nth_error_repeat by lia. split; reflexivity.
  - destruct (B i ltac:(lia)) as (v & Nv & Vv). exists v. split; [exact Nv|]. rewrite Vv, Nat.sub_0_r. ring.
Qed.

(* ---- between two bounds ---- *)
Notation C x0 x1 := (at_seg (clip x0 x1) (segments (combine x y))).

Lemma clip_eq x0 x1 xa ya xb yb l r : (l == Qmax x0 xa)%Q -> (r == Qmin x1 xb)%Q -> (l <= r)%Q -> 
  (clip x0 x1 ((xa, ya), (xb, yb)) == (line xa ya xb yb l + line xa ya xb yb r) / 2 * (r - l))%Q.
Proof.
  intros H1 H2 H3. unfold clip. destruct (Qlt_le_dec (Qmax x0 xa) (Qmin x1 xb)) as [Hc|Hc].
  - unfold line. rewrite H1, H2. reflexivity.
  - assert (r - l == 0)%Q as E by (rewrite H1, H2; rewrite H1, H2 in H3; lra). rewrite E. ring.
Qed.
Lemma clip_zero x0 x1 xa ya xb yb : (xb <= x0)%Q \/ (x1 <= xa)%Q -> clip x0 x1 ((xa, ya), (xb, yb)) = 0%Q.
Proof.
  intros H. unfold clip. destruct (Qlt_le_dec (Qmax x0 xa) (Qmin x1 xb)) as [Hc|Hc]; [exfalso|reflexivity].
  pose proof (Q.le_max_l x0 xa). pose proof (Q.le_max_r x0 xa). pose proof (Q.le_min_l x1 xb). pose proof (Q.le_min_r x1 xb).
  destruct H; lra.
Qed.
Lemma line_a xa ya xb yb : (line xa ya xb yb xa == ya)%Q.
Proof. unfold line. ring. Qed.
Lemma line_b xa ya xb yb : (xa < xb)%Q -> (line xa ya xb yb xb == yb)%Q.
Proof. intros H. unfold line. field. lra. Qed.
Lemma interp_line xa ya xb yb t : (xa < xb)%Q -> exists r, interp ya yb xa xb t = Some r /\ (r == line xa ya xb yb t)%Q.
Proof.
  intros H. unfold interp, qdiv. destruct (Qeq_bool (xb - xa) 0) eqn:E; [apply Qeq_bool_iff in E; exfalso; lra|].
  eexists. split; [reflexivity|]. unfold line. field. lra.
Qed.

Lemma qs_tail f s n : (forall k, s <= k < s + n -> (f k == 0)%Q) -> (qs f (seq s n) == 0)%Q.
Proof. intros H. apply qs_zero. intros k Hk. apply in_seq in Hk. apply H. exact Hk. Qed.

Hypothesis M : nondecreasing x.

Lemma between_ok i0 i1 x0 x1 a b c : 1 <= i0 -> (x0 <= x1)%Q ->
  nth_error x (i0 - 1) = Some a -> (a <= x0)%Q ->
  nth_error x i0 = Some b -> (x0 < b)%Q ->
  nth_error x i1 = Some c -> (c <= x1)%Q ->
  (forall d, nth_error x (i1 + 1) = Some d -> (x1 < d)%Q) ->
  (forall d, nth_error x (length x - 1) = Some d -> (x1 <= d)%Q) ->
  exists r, between x y i0 i1 x0 x1 = Ok (Some r) /\ (r == area x y x0 x1)%Q.
Proof.
  intros P0 X01 Na Ha Nb Hb Nc Hc Hd Hlast.
  assert (B0 : i0 < length x) by (apply nth_error_Some; congruence).
  assert (B1 : i1 < length x) by (apply nth_error_Some; congruence).
  assert (I01 : i0 <= i1 + 1).
  { destruct (Nat.le_gt_cases i0 (i1 + 1)) as [K|K]; [exact K|].
    destruct (nth_error x (i1 + 1)) as [d|] eqn:Ed; [|apply nth_error_None in Ed; lia].
    specialize (Hd d eq_refl). pose proof (nondecreasing_mono x (i1 + 1) (i0 - 1) d a M ltac:(lia) Ed Na). lra. }
  assert (AR : (area x y x0 x1 == qs (C x0 x1) (seq 0 (i0 - 1)) + (C x0 x1 (i0 - 1) + qs (C x0 x1) (seq i0 (length x - 1 - i0))))%Q).
  { unfold area. rewrite sum_with_qs, segs_len by exact L.
    replace (length x - 1) with ((i0 - 1) + (1 + (length x - 1 - i0))) at 1 by lia.
    rewrite !seq_app, !qs_app. replace (0 + (i0 - 1) + 1) with i0 by lia. cbn [Nat.add seq]. rewrite qs_cons.
    change (qs (C x0 x1) []) with 0%Q. ring. }
  assert (Z1 : (qs (C x0 x1) (seq 0 (i0 - 1)) == 0)%Q).
  { apply qs_tail. intros k Hk. destruct (four_nodes x y k L ltac:(lia)) as (xa & xb & ya & yb & N1 & N2 & N3 & N4 & _).
    unfold at_seg. rewrite (nth_segments x y k _ _ _ _ N1 N2 N3 N4), clip_zero; [reflexivity|]. left.
    pose proof (nondecreasing_mono x (k + 1) (i0 - 1) xb a M ltac:(lia) N2 Na). lra. }
  assert (K2 : forall k, i1 + 1 <= k -> k + 1 < length x -> (C x0 x1 k == 0)%Q).
  { intros k Hk1 Hk2. destruct (four_nodes x y k L Hk2) as (xa & xb & ya & yb & N1 & N2 & N3 & N4 & _).
    unfold at_seg. rewrite (nth_segments x y k _ _ _ _ N1 N2 N3 N4), clip_zero; [reflexivity|]. right.
    destruct (nth_error x (i1 + 1)) as [d|] eqn:Ed; [|apply nth_error_None in Ed; lia].
    specialize (Hd d eq_refl). pose proof (nondecreasing_mono x (i1 + 1) k d xa M ltac:(lia) Ed N1). lra. }
  destruct (four_nodes x y (i0 - 1) L ltac:(lia)) as (xa & xb & ya & yb & N1 & N2 & N3 & N4 & E1 & E2 & E3 & E4).
  replace (i0 - 1 + 1) with i0 in * by lia.
  rewrite N1 in Na; injection Na as <-. rewrite N2 in Nb; injection Nb as <-.
  assert (Hab : (xa < xb)%Q) by lra.
  assert (C0 : C x0 x1 (i0 - 1) = clip x0 x1 ((xa, ya), (xb, yb))).
  { unfold at_seg. rewrite (nth_segments x y (i0 - 1) xa xb ya yb); auto; replace (i0 - 1 + 1) with i0 by lia; assumption. }
  unfold between. destruct (Nat.ltb_spec i1 i0) as [CI|CI].
  - (* both bounds in the same segment *)
    assert (i1 = i0 - 1) by lia. subst i1. rewrite E3. cbn [obind]. rewrite E4. cbn [obind]. rewrite E1. cbn [obind]. rewrite E2. cbn [obind].
    destruct (interp_line xa ya xb yb x0 Hab) as (u0 & F0 & V0). destruct (interp_line xa ya xb yb x1 Hab) as (u1 & F1 & V1).
    rewrite F0, F1. eexists. split; [reflexivity|]. rewrite AR, Z1.
    rewrite (qs_tail (C x0 x1) i0) by (intros k Hk; apply K2; lia). rewrite C0.
    assert (X1 : (x1 <= xb)%Q).
    { specialize (Hd xb). replace (i0 - 1 + 1) with i0 in Hd by lia. specialize (Hd N2). lra. }
    rewrite (clip_eq x0 x1 xa ya xb yb x0 x1); [|symmetry; apply Q.max_l; exact Ha|symmetry; apply Q.min_l; exact X1|exact X01].
    rewrite V0, V1. field.
  - (* at least one node in between *)
    assert (Hcb : (xb <= x1)%Q).
    { pose proof (nondecreasing_mono x i0 i1 xb c M CI N2 Nc). lra. }
    destruct (trap_fold (i1 - i0) i0 0%Q ltac:(lia)) as (r & E & V). rewrite E. cbn [obind].
    destruct (Nat.ltb_spec 0 i0); [|lia]. rewrite E3. cbn [obind]. rewrite E4. cbn [obind]. rewrite E1. cbn [obind]. rewrite E2. cbn [obind].
    destruct (interp_line xa ya xb yb x0 Hab) as (u0 & F0 & V0). rewrite F0. cbn [obind].
    assert (Mid : (qs (C x0 x1) (seq i0 (i1 - i0)) == qs T (seq i0 (i1 - i0)))%Q).
    { assert (G : forall l, (forall k, In k l -> (C x0 x1 k == T k)%Q) -> (qs (C x0 x1) l == qs T l)%Q).
      { induction l as [|k l IH]; intros H0; [reflexivity|]. rewrite !qs_cons, (H0 k), IH; [reflexivity| |left; reflexivity].
        intros j Hj; apply H0; right; exact Hj. }
      apply G. intros k Hk. apply in_seq in Hk.
      destruct (four_nodes x y k L ltac:(lia)) as (ka & kb & va & vb & K1 & K3 & K4 & K5 & _).
      unfold at_seg. rewrite (nth_segments x y k _ _ _ _ K1 K3 K4 K5).
      pose proof (nondecreasing_mono x i0 k xb ka M ltac:(lia) N2 K1).
      pose proof (nondecreasing_mono x (k + 1) i1 kb c M ltac:(lia) K3 Nc).
      pose proof (M k ka kb K1 K3).
      rewrite (clip_eq x0 x1 ka va kb vb ka kb); [|symmetry; apply Q.max_r; lra|symmetry; apply Q.min_r; lra|assumption].
      unfold trap. destruct (Qlt_le_dec ka kb) as [W|W].
      - rewrite line_a, line_b by exact W. reflexivity.
      - assert (kb - ka == 0)%Q as Z by lra. rewrite Z. ring. }
    assert (First : (C x0 x1 (i0 - 1) == (u0 + yb) / 2 * (xb - x0))%Q).
    { rewrite C0. rewrite (clip_eq x0 x1 xa ya xb yb x0 xb); [|symmetry; apply Q.max_l; exact Ha|symmetry; apply Q.min_r; exact Hcb|lra].
      rewrite line_b by exact Hab. rewrite V0. reflexivity. }
    destruct (Nat.ltb_spec i1 (length x - 1)) as [CL|CL].
    + assert (AT : (qs (C x0 x1) (seq i0 (length x - 1 - i0)) == qs (C x0 x1) (seq i0 (i1 - i0)) + C x0 x1 i1)%Q).
      { replace (length x - 1 - i0) with ((i1 - i0) + (1 + (length x - 2 - i1))) by lia.
        rewrite !seq_app, !qs_app. replace (i0 + (i1 - i0)) with i1 by lia.
        rewrite (qs_tail (C x0 x1) (i1 + 1)) by (intros k Hk; apply K2; lia).
        cbn [seq]. rewrite qs_cons. change (qs (C x0 x1) []) with 0%Q. ring. }
      destruct (four_nodes x y i1 L ltac:(lia)) as (ca & cb & wa & wb & M1 & M2 & M3 & M4 & G1 & G2 & G3 & G4).
      rewrite G3. cbn [obind]. rewrite G4. cbn [obind]. rewrite G1. cbn [obind]. rewrite G2. cbn [obind].
      rewrite M1 in Nc; injection Nc as <-. specialize (Hd cb M2).
      destruct (interp_line ca wa cb wb x1 ltac:(lra)) as (u1 & F1 & V1). rewrite F1. cbn [obind oadd].
      eexists. split; [reflexivity|].
      rewrite AR, AT, Z1, First, Mid, V. unfold at_seg. rewrite (nth_segments x y i1 _ _ _ _ M1 M2 M3 M4).
      pose proof (nondecreasing_mono x i0 i1 xb ca M CI N2 M1).
      rewrite (clip_eq x0 x1 ca wa cb wb ca x1); [|symmetry; apply Q.max_r; lra|symmetry; apply Q.min_l; lra|assumption].
      rewrite line_a, V1. field.
    + cbn [obind oadd]. eexists. split; [reflexivity|].
      rewrite AR. replace (length x - 1 - i0) with (i1 - i0) by lia. rewrite Z1, First, Mid, V. field.
Qed.

(* the bounds that the searches find *)
Lemma integrate_bounds_ok x0 x1 front back :
  nth_error x 0 = Some front -> nth_error x (length x - 1) = Some back ->
  (front <= x0)%Q -> (x0 <= x1)%Q -> (x1 <= back)%Q -> (x0 < back)%Q ->
  exists r, integrate_bounds x y x0 x1 = Ok (Some r) /\ (r == area x y x0 x1)%Q.
Proof.
  intros Nf Nb H1 H2 H3 H4. assert (LX : 0 < length x) by (assert (0 < length x) by (apply nth_error_Some; congruence); assumption).
  unfold integrate_bounds, bound_checks. rewrite (proj2 (Nat.eqb_eq _ _) L). cbn [check obind].
  destruct (Nat.eqb_spec (length y) 0); [lia|]. cbn [negb check obind].
  rewrite (proj2 (oget_Ok _ _ _ _) Nf). cbn [obind]. rewrite (proj2 (Qle_bool_iff _ _) H1). cbn [check obind].
  rewrite (proj2 (oget_Ok _ _ _ _) Nb). cbn [obind]. rewrite (proj2 (Qle_bool_iff _ _) H3). cbn [check obind].
  destruct (upper_bound_ok qlt qlt_order x x0 (nondecreasing_ascending x M)) as (o0 & E0 & S0). rewrite E0. cbn [obind].
  destruct (lower_bound_ok qlt qlt_order x x1 (nondecreasing_ascending x M)) as (o1 & E1 & S1). rewrite E1. cbn [obind].
  destruct o0 as [i0|].
  2:{ exfalso. specialize (S0 _ _ Nb). apply qlt_false in S0. lra. }
  destruct o1 as [i1|].
  2:{ exfalso. specialize (S1 _ _ Nf). apply qlt_true in S1. lra. }
  destruct S0 as [(b & Nb0 & Hb) A0]. apply qlt_true in Hb. destruct S1 as [(c & Nc & Hc) A1]. apply qlt_false in Hc.
  assert (P0 : 1 <= i0).
  { destruct i0; [|lia]. rewrite Nf in Nb0. injection Nb0 as <-. lra. }
  destruct (nth_error x (i0 - 1)) as [a|] eqn:Na.
  2:{ apply nth_error_None in Na. assert (i0 < length x) by (apply nth_error_Some; congruence). lia. }
  apply (between_ok i0 i1 x0 x1 a b c); auto.
  - apply qlt_false. apply (A0 (i0 - 1)); [lia|exact Na].
  - intros d Nd. apply qlt_true. apply (A1 (i1 + 1)); [lia|exact Nd].
  - intros d Nd. rewrite Nb in Nd. injection Nd as <-. exact H3.
Qed.

Lemma integrate_bounds_end x0 back : nth_error x (length x - 1) = Some back -> (x0 == back)%Q -> 
  integrate_bounds x y x0 x0 = UB.
Proof.
  intros Nb H. assert (LX : 0 < length x) by (destruct x; [discriminate|simpl; lia]).
  destruct (nth_error x 0) as [front|] eqn:Nf; [|apply nth_error_None in Nf; lia].
  pose proof (nondecreasing_mono x 0 (length x - 1) front back M ltac:(lia) Nf Nb).
  unfold integrate_bounds, bound_checks. rewrite (proj2 (Nat.eqb_eq _ _) L). cbn [check obind].
  destruct (Nat.eqb_spec (length y) 0); [lia|]. cbn [negb check obind].
  rewrite (proj2 (oget_Ok _ _ _ _) Nf). cbn [obind]. rewrite (proj2 (Qle_bool_iff _ _)) by lra. cbn [check obind].
  rewrite (proj2 (oget_Ok _ _ _ _) Nb). cbn [obind]. rewrite (proj2 (Qle_bool_iff _ _)) by lra. cbn [check obind].
  destruct (upper_bound_ok qlt qlt_order x x0 (nondecreasing_ascending x M)) as (o0 & E0 & S0). rewrite E0. cbn [obind].
  destruct (lower_bound_ok qlt qlt_order x x0 (nondecreasing_ascending x M)) as (o1 & E1 & S1). rewrite E1. cbn [obind].
  destruct o0 as [i0|]; [|reflexivity].
  destruct S0 as [(b & Nb0 & Hb) _]. apply qlt_true in Hb. assert (i0 < length x) by (apply nth_error_Some; congruence).
  pose proof (nondecreasing_mono x i0 (length x - 1) b back M ltac:(lia) Nb0 Nb). lra.
Qed.

End Grid.

(* the loops that advance the hint *)
Lemma advance_ok x t : forall d fuel i a, d = length x - i -> d < fuel -> nth_error x i = Some a -> (a <= t)%Q ->
  exists j c, advance fuel x t i = Ok j /\ i <= j /\ nth_error x j = Some c /\ (c <= t)%Q /\
    forall e, nth_error x (j + 1) = Some e -> (t < e)%Q.
Proof.
  induction d as [|d IH]; intros fuel i a Hd Hf Na Ha; assert (i < length x) by (apply nth_error_Some; congruence); [lia|].
  destruct fuel as [|f]; [lia|]. cbn [advance]. destruct (Nat.ltb_spec i (length x - 1)) as [K|K].
  - destruct (oget_in _ x (i + 1) ltac:(lia)) as (e & E & N). rewrite E. cbn [obind].
    destruct (Qle_bool e t) eqn:Q1.
    + apply Qle_bool_iff in Q1. destruct (IH f (i + 1) e ltac:(lia) ltac:(lia) N Q1) as (j & c & E1 & G1 & G2 & G3 & G4).
      exists j, c. split; [exact E1|]. split; [lia|]. auto.
    + apply Qle_bool_false in Q1. exists i, a. split; [reflexivity|]. split; [lia|]. split; [exact Na|]. split; [exact Ha|].
      intros e' Ne. rewrite N in Ne. injection Ne as <-. exact Q1.
  - exists i, a. split; [reflexivity|]. split; [lia|]. split; [exact Na|]. split; [exact Ha|].
    intros e Ne. assert (i + 1 < length x) by (apply nth_error_Some; congruence). lia.
Qed.
