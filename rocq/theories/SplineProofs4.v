(* What the spline functions return. *)
From Coq Require Import QArith Qabs Qfield Qround Lqa Lia.
From Verif Require Import Base OrderModel OrderSpec InterpModel InterpSpec InterpProofs MatProofs VecProofs OrderProofs3 SplineModel SplineSpec SplineProofs SplineProofs2 SplineProofs3.
Local Open Scope nat_scope.

Lemma floor_le t : (inject_Z (Qfloor t) <= t)%Q.
Proof. apply Qfloor_le. Qed.
Lemma floor_lt t : (t < inject_Z (Qfloor t) + 1)%Q.
Proof. pose proof (Qlt_floor t) as H. rewrite inject_Z_plus in H. exact H. Qed.
Lemma floor64_ok t : (- inject_Z two63 <= t < inject_Z two63)%Q -> floor64 t = Ok (Qfloor t).
Proof.
  intros (H1 & H2). unfold floor64, signed64.
  assert (- two63 <= Qfloor t)%Z as A.
  { rewrite <- (Qfloor_Z (- two63)). apply Qfloor_resp_le. rewrite inject_Z_opp. exact H1. }
  assert (Qfloor t < two63)%Z as B.
  { rewrite Zlt_Qlt. eapply Qle_lt_trans; [apply floor_le|exact H2]. }
  destruct (Z.leb_spec (- two63) (Qfloor t)); [|lia]. destruct (Z.ltb_spec (Qfloor t) two63); [reflexivity|lia].
Qed.

Lemma sp_eval_u_ok n y co b c d t : length y = n + 1 -> 1 <= n ->
  (- inject_Z two63 <= t < inject_Z two63)%Q -> finite3 n co b c d ->
  (c n == 0 /\ d n == 0 /\ b n == slope (b (n - 1)%nat) (c (n - 1)%nat) (d (n - 1)%nat) 1)%Q ->
  exists r, sp_eval_u y co t = Ok (Some r) /\ spline_at n unit_node (node y) b c d t r.
Proof.
  intros Ly Hn Ht F (Cn & Dn & Bn). unfold sp_eval_u. rewrite (floor64_ok t Ht). cbn [obind].
  pose proof (floor_le t) as F1. pose proof (floor_lt t) as F2.
  destruct (Z.ltb_spec (Qfloor t) 0) as [K|K].
  - destruct (sp_before_ok n y co b c d t F Ly) as (r & Er & Hr).
    exists r. split; [exact Er|]. left. split.
    + assert (inject_Z (Qfloor t) <= inject_Z (-1))%Q as A by (rewrite <- Zle_Qle; lia).
      change (inject_Z (-1)) with (-1)%Q in A. change (t < 0)%Q. lra.
    + rewrite Hr. unfold slope, unit_node. change (inject_Z (Z.of_nat 0)) with 0%Q. ring.
  - replace (length y - 1) with n by lia. unfold fsub, lift2, fz.
    destruct (Z.ltb_spec (Z.of_nat n) (Qfloor t)) as [L|L].
    + destruct (sp_cubic_ok n y co b c d n (t - unit_node n)%Q F Ly ltac:(lia)) as (r & Er & Hr).
      exists r. split; [exact Er|]. right. right. split.
      * unfold unit_node. assert (inject_Z (Z.of_nat n) <= inject_Z (Qfloor t))%Q by (rewrite <- Zle_Qle; lia). lra.
      * rewrite Hr. unfold cubic. rewrite Cn, Dn, Bn. unfold slope. pose proof (unit_h (n - 1)) as U. rewrite !U. ring.
    + set (k := Z.to_nat (Qfloor t)). assert (Z.of_nat k = Qfloor t) as Ek by (subst k; lia).
      rewrite Ek. rewrite <- Ek in *.
      destruct (sp_cubic_ok n y co b c d k (t - unit_node k)%Q F Ly ltac:(lia)) as (r & Er & Hr).
      exists r. split; [exact Er|]. destruct (Nat.eq_dec k n) as [E|E].
      * right. right. rewrite E in *. split; [exact F1|]. rewrite Hr.
        unfold cubic. rewrite Cn, Dn, Bn. unfold slope. pose proof (unit_h (n - 1)) as U. rewrite !U. ring.
      * right. left. exists k. split; [lia|]. split; [exact F1|]. split; [|exact Hr].
        pose proof (unit_h k) as U. unfold unit_node in *. lra.
Qed.

(* ---------- the natural spline ---------- *)
Lemma ordered_lt n x : ordered n x -> forall j i, i < j -> j <= n -> (x i < x j)%Q.
Proof.
  intros H. induction j as [|j IH]; intros i Hi Hj; [lia|].
  pose proof (H j ltac:(lia)) as A. replace (j + 1) with (S j) in A by lia.
  destruct (Nat.eq_dec i j) as [->|]; [exact A|]. specialize (IH i ltac:(lia) ltac:(lia)). lra.
Qed.
Lemma ordered_le n x : ordered n x -> forall j i, i <= j -> j <= n -> (x i <= x j)%Q.
Proof.
  intros H j i Hi Hj. destruct (Nat.eq_dec i j) as [->|]; [apply Qle_refl|]. apply Qlt_le_weak, (ordered_lt n); auto; lia.
Qed.
Lemma ordered_h n x : ordered n x -> forall i, i < n -> (0 < x (i + 1)%nat - x i)%Q.
Proof. intros H i Hi. specialize (H i Hi). lra. Qed.
Lemma unit_ordered n : ordered n unit_node.
Proof. intros i _. pose proof (unit_h i). lra. Qed.
Lemma increasing_ordered n x : increasing x -> length x = n + 1 -> ordered n (node x).
Proof. intros H L i Hi. pose proof (h_pos x H i ltac:(lia)). lra. Qed.

Lemma spline_at_ext n x y b c d b' c' d' t r : 0 < n -> 
  (forall i, i < n -> (b i == b' i /\ c i == c' i /\ d i == d' i)%Q) ->
  spline_at n x y b c d t r -> spline_at n x y b' c' d' t r.
Proof.
  intros Hn H [(A & B)|[(k & K & A1 & A2 & B)|(A & B)]].
  - left. split; [exact A|]. rewrite B. destruct (H 0 Hn) as (E1 & E2 & E3). unfold slope. rewrite E1, E2, E3. reflexivity.
  - right; left. exists k. repeat split; try assumption. rewrite B.
    destruct (H k K) as (E1 & E2 & E3). unfold cubic. rewrite E1, E2, E3. reflexivity.
  - right; right. split; [exact A|]. rewrite B. destruct (H (n - 1) ltac:(lia)) as (E1 & E2 & E3).
    unfold slope. rewrite E1, E2, E3. reflexivity.
Qed.
Lemma spline_at_fun n x y b c d t r r' : ordered n x ->
  spline_at n x y b c d t r -> spline_at n x y b c d t r' -> (r == r')%Q.
Proof.
  intros H S S'.
  destruct S as [(A & B)|[(k & K & A1 & A2 & B)|(A & B)]]; destruct S' as [(A' & B')|[(k' & K' & A1' & A2' & B')|(A' & B')]];
    try (rewrite B, B'; reflexivity).
  - pose proof (ordered_le n x H k' 0 ltac:(lia) ltac:(lia)). lra.
  - pose proof (ordered_le n x H n 0 ltac:(lia) ltac:(lia)). lra.
  - pose proof (ordered_le n x H k 0 ltac:(lia) ltac:(lia)). lra.
  - destruct (Nat.lt_trichotomy k k') as [L|[->|L]].
    + pose proof (ordered_le n x H k' (k + 1) ltac:(lia) ltac:(lia)). lra.
    + rewrite B, B'. reflexivity.
    + pose proof (ordered_le n x H k (k' + 1) ltac:(lia) ltac:(lia)). lra.
  - pose proof (ordered_le n x H n (k + 1) ltac:(lia) ltac:(lia)). lra.
  - pose proof (ordered_le n x H n 0 ltac:(lia) ltac:(lia)). lra.
  - pose proof (ordered_le n x H n (k' + 1) ltac:(lia) ltac:(lia)). lra.
Qed.
Lemma spline_at_node n x y b c d k r : ordered n x -> through n x y b c d -> k <= n -> 
  spline_at n x y b c d (x k) r -> (r == y k)%Q.
Proof.
  intros H T Hk S. apply (spline_at_fun n x y b c d (x k) r (y k) H S).
  destruct (Nat.eq_dec k n) as [->|].
  - right; right. split; [apply Qle_refl|]. ring.
  - right; left. exists k. split; [lia|]. split; [apply Qle_refl|]. split; [apply H; lia|]. unfold cubic. ring.
Qed.

Lemma natural_value_fun n x y t r r' : 0 < n -> ordered n x ->
  natural_value n x y t r -> natural_value n x y t r' -> (r == r')%Q.
Proof.
  intros Hn H (b & c & d & N & S) (b' & c' & d' & N' & S').
  apply (spline_at_fun n x y b' c' d' t r r' H); [|exact S'].
  apply (spline_at_ext n x y b c d); [exact Hn| |exact S]. intros i Hi.
  apply (natural_unique_ n x y b c d b' c' d' Hn (ordered_h n x H) N N' i Hi).
Qed.

(* a straight line is its own natural spline *)
Lemma line_natural n x y a m : 0 < n -> ordered n x -> (forall i, i <= n -> (y i == a + m * x i)%Q) ->
  natural_spline n x y (fun _ => m) (fun _ => 0%Q) (fun _ => 0%Q).
Proof.
  intros Hn H L. split; [|split].
  - intros k Hk. unfold cubic. rewrite (L k), (L (k + 1)) by lia. ring.
  - split; [|split]; intros; unfold curvature; ring.
  - intros k Hk. unfold slope. ring.
Qed.
Lemma line_value n x y a m t r : 0 < n -> ordered n x -> (forall i, i <= n -> (y i == a + m * x i)%Q) ->
  natural_value n x y t r -> (r == a + m * t)%Q.
Proof.
  intros Hn H L N. assert (exists r', spline_at n x y (fun _ => m) (fun _ => 0%Q) (fun _ => 0%Q) t r' /\ r' == a + m * t)%Q as (r' & S & E).
  2:{ rewrite <- E. apply (natural_value_fun n x y t); auto. do 3 eexists. split; [|exact S]. apply (line_natural n x y a); auto. }
  exists (a + m * t)%Q. split; [|reflexivity].
  destruct (Qlt_le_dec t (x 0)) as [A|A].
  - left. split; [exact A|]. rewrite (L 0) by lia. unfold slope. ring.
  - assert (forall k, k <= n -> (x k <= t)%Q \/ exists j, j < k /\ (x j <= t)%Q /\ (t < x (j + 1)%nat)%Q) as G.
    { induction k as [|k IH]; intros Hk; [left; exact A|]. destruct (IH ltac:(lia)) as [B|(j & J1 & J2)].
      - destruct (Qlt_le_dec t (x (S k))) as [C|C]; [|left; exact C]. right. exists k. split; [lia|]. split; [exact B|].
        replace (k + 1) with (S k) by lia. exact C.
      - right. exists j. split; [lia|exact J2]. }
    destruct (G n ltac:(lia)) as [B|(j & J1 & J2 & J3)].
    + right; right. split; [exact B|]. rewrite (L n) by lia. unfold slope. ring.
    + right; left. exists j. split; [exact J1|]. split; [exact J2|]. split; [exact J3|]. unfold cubic. rewrite (L j) by lia. ring.
Qed.

(* ---------- the functions ---------- *)
Lemma swept_natural n x y al mu z b c d : 0 < n -> ordered n x -> swept n x y al mu z b c d ->
  (forall i, i + 1 < n -> (al (i + 1)%nat == 3 * (y (i + 2)%nat - y (i + 1)%nat) / (x (i + 2)%nat - x (i + 1)%nat) -
     3 * (y (i + 1)%nat - y i) / (x (i + 1)%nat - x i))%Q) -> natural_spline n x y b c d.
Proof.
  intros Hn H S A. pose proof (ordered_h n x H) as Hh.
  split; [|split].
  - apply (swept_through n x y al mu z b c d S Hh).
  - apply (swept_smooth2 n x y al mu z b c d S Hh Hn).
  - intros k Hk. pose proof (swept_jump n x y al mu z b c d S Hh k Hk) as J. cbv beta zeta in J.
    rewrite (A k Hk) in J. replace (k + 1 + 1) with (k + 2) in * by lia.
    pose proof (Hh k ltac:(lia)) as P1. pose proof (Hh (k + 1) ltac:(lia)) as P2. replace (k + 1 + 1) with (k + 2) in P2 by lia.
    match goal with |- (?a == ?b)%Q => assert (a - b == 0)%Q as Z; [|lra] end. etransitivity; [exact J|].
    field. split; apply q_pos_ne; assumption.
Qed.

Lemma spline_u_co y : 2 <= length y -> exists co b c d, sp_coefs_u y = Ok co /\
  natural_spline (length y - 1) unit_node (node y) b c d /\
  forall t, (- inject_Z two63 <= t < inject_Z two63)%Q ->
    exists r, sp_eval_u y co t = Ok (Some r) /\ spline_at (length y - 1) unit_node (node y) b c d t r.
Proof.
  intros H. destruct (sp_coefs_u_ok y H) as (co & b & c & d & al & mu & z & E & F & S & A & K).
  exists co, b, c, d. split; [exact E|]. split.
  - apply (swept_natural _ _ _ al mu z); [lia|apply unit_ordered|exact S|].
    intros i Hi. rewrite (A (i + 1)). pose proof (unit_h (i + 1)) as U. replace (i + 1 + 1) with (i + 2) in * by lia.
    rewrite U, unit_h. replace (i + 1 - 1) with i by lia. field.
  - intros t Ht. apply sp_eval_u_ok; auto; lia.
Qed.

Lemma spline_u_ok y t : 2 <= length y -> (- inject_Z two63 <= t < inject_Z two63)%Q ->
  exists r, spline_point_u y t = Ok (Some r) /\ natural_value (length y - 1) unit_node (node y) t r.
Proof.
  intros H Ht. destruct (spline_u_co y H) as (co & b & c & d & E & N & V).
  unfold spline_point_u. rewrite (proj2 (Nat.leb_le _ _) H). cbn [check obind]. rewrite E. cbn [obind].
  destruct (V t Ht) as (r & Er & Sr). exists r. split; [exact Er|]. exists b, c, d. auto.
Qed.

(* the slope jump of the non-uniform version *)
Definition jump (n : nat) (x y b c d : nat -> Q) : Prop := forall k, k + 1 < n ->
  (slope (b k) (c k) (d k) (x (k + 1)%nat - x k) - slope (b (k + 1)%nat) (c (k + 1)%nat) (d (k + 1)%nat) 0 ==
   (y (k + 1)%nat - y k) / (x (k + 1)%nat - x k) - (y (k + 1)%nat - y k) / (x (k + 2)%nat - x (k + 1)%nat))%Q.

Lemma spline_co y x : increasing x -> length y = length x -> 2 <= length y -> exists co b c d, sp_coefs y x = Ok co /\
  through (length y - 1) (node x) (node y) b c d /\ smooth2 (length y - 1) (node x) c d /\
  jump (length y - 1) (node x) (node y) b c d /\
  forall t, exists r, sp_eval y x co t = Ok (Some r) /\ spline_at (length y - 1) (node x) (node y) b c d t r.
Proof.
  intros Hx Hl H. destruct (sp_coefs_ok y x Hx Hl H) as (co & b & c & d & al & mu & z & E & F & S & A & K).
  pose proof (increasing_ordered (length y - 1) x Hx ltac:(lia)) as O. pose proof (ordered_h _ _ O) as Hh.
  exists co, b, c, d. split; [exact E|]. split; [|split; [|split]].
  - apply (swept_through _ _ _ _ _ _ _ _ _ S Hh).
  - apply (swept_smooth2 _ _ _ _ _ _ _ _ _ S Hh). lia.
  - intros k Hk. pose proof (swept_jump _ _ _ _ _ _ _ _ _ S Hh k Hk) as J. cbv beta zeta in J.
    rewrite J, (A (k + 1)). replace (k + 1 + 1) with (k + 2) by lia. replace (k + 1 - 1) with k by lia.
    pose proof (Hh k ltac:(lia)) as P1. pose proof (Hh (k + 1) ltac:(lia)) as P2. replace (k + 1 + 1) with (k + 2) in P2 by lia.
    field. split; apply q_pos_ne; assumption.
  - intros t. apply sp_eval_ok; auto; lia.
Qed.

Lemma spline_equal_spacing y x h : increasing x -> length y = length x -> 2 <= length y ->
  (forall i, i + 1 < length x -> (node x (i + 1) - node x i == h)%Q) ->
  forall t, exists r, spline_point y x t = Ok (Some r) /\ natural_value (length y - 1) (node x) (node y) t r.
Proof.
  intros Hx Hl H He t. destruct (spline_co y x Hx Hl H) as (co & b & c & d & E & T & S2 & J & V).
  unfold spline_point. rewrite (proj2 (Nat.eqb_eq _ _) Hl), (proj2 (Nat.leb_le _ _) H). cbn [check obind]. rewrite E. cbn [obind].
  destruct (V t) as (r & Er & Sr). exists r. split; [exact Er|]. exists b, c, d. split; [|exact Sr].
  split; [exact T|]. split; [exact S2|]. intros k Hk. specialize (J k Hk). unfold slope in *.
  pose proof (He (k + 1) ltac:(lia)) as H1. replace (k + 1 + 1) with (k + 2) in H1 by lia. rewrite H1, (He k) in J by lia.
  rewrite (He k) by lia. lra.
Qed.
