(* The uniform version, the evaluation, and the resulting spline. *)
From Coq Require Import QArith Qabs Qfield Qround Lqa Lia.
From Verif Require Import Base OrderModel OrderSpec InterpModel InterpSpec InterpProofs MatProofs VecProofs OrderProofs3 SplineModel SplineSpec SplineProofs SplineProofs2.
Local Open Scope nat_scope.

Lemma unit_h k : (unit_node (k + 1) - unit_node k == 1)%Q.
Proof. unfold unit_node. rewrite Nat2Z.inj_add, inject_Z_plus. cbn. ring. Qed.
Lemma unit_2h k : 1 <= k -> (unit_node (k + 1) - unit_node (k - 1) == 2)%Q.
Proof.
  intros H. pose proof (unit_h k) as A. pose proof (unit_h (k - 1)) as B. replace (k - 1 + 1) with k in B by lia. lra.
Qed.

Section Uniform.
Variables (y : list Q).
Hypothesis H2 : 2 <= length y.
Let n := length y - 1.
Let Y := node y.
Let al (i : nat) : Q := (3 * (Y (i + 1)%nat - Y i) - 3 * (Y i - Y (i - 1)%nat))%Q.

Let g (i : nat) (mz : Q * Q) : Q * Q :=
  let l := (4 - fst mz)%Q in (1 / l, (al i - snd mz) / l)%Q.
Let M (i : nat) : Q := fst (mz g i).
Let Z (i : nat) : Q := snd (mz g i).
Let l (i : nat) : Q := (4 - M (i - 1)%nat)%Q.

Lemma mzu_step i : 1 <= i -> mz g i = g i (mz g (i - 1)).
Proof. intros Hi. destruct i as [|i]; [lia|]. cbn [mz]. replace (S i - 1) with i by lia. reflexivity. Qed.

Lemma Mu_bounds i : (0 <= M i /\ M i <= 1)%Q.
Proof.
  induction i as [|i IH]; [unfold M; cbn; lra|].
  unfold M. rewrite (mzu_step (S i)) by lia.
  change (0 <= 1 / l (S i) /\ 1 / l (S i) <= 1)%Q. assert (l (S i) == 4 - M i)%Q as L.
  { unfold l. replace (S i - 1) with i by lia. reflexivity. }
  assert (0 < l (S i))%Q by lra. split; [apply Qle_shift_div_l|apply Qle_shift_div_r]; lra.
Qed.
Lemma lu_pos i : (0 < l i)%Q.
Proof. destruct (Mu_bounds (i - 1)). unfold l. lra. Qed.

Let cf (i : nat) (c1 : Q) : Q := (Z i - M i * c1)%Q.
Let bf (i : nat) (c1 ci : Q) : Q := ((Y (i + 1)%nat - Y i) - (1#3) * (c1 + 2 * ci))%Q.
Let df (i : nat) (c1 ci : Q) : Q := ((1#3) * (c1 - ci))%Q.
Let C := cq n cf.
Let B (i : nat) : Q := bf i (C (i + 1)) (C i).
Let D (i : nat) : Q := df i (C (i + 1)) (C i).

Lemma swept_uniform : swept n unit_node Y al M Z B C D.
Proof.
  constructor.
  - intros i Hi. rewrite unit_2h by lia. rewrite !unit_h.
    unfold M at 1. rewrite (mzu_step i) by lia.
    change (1 / l i * (2 * 2 - 1 * M (i - 1)) == 1)%Q. pose proof (q_pos_ne _ (lu_pos i)) as Hne.
    setoid_replace (2 * 2 - 1 * M (i - 1))%Q with (l i) by (unfold l; ring).
    generalize (l i) Hne. intros p Hp. field. exact Hp.
  - intros i Hi. rewrite unit_2h by lia. rewrite !unit_h. unfold Z at 1. rewrite (mzu_step i) by lia.
    change ((al i - Z (i - 1)) / l i * (2 * 2 - 1 * M (i - 1)) == al i - 1 * Z (i - 1))%Q.
    pose proof (q_pos_ne _ (lu_pos i)) as Hne.
    setoid_replace (2 * 2 - 1 * M (i - 1))%Q with (l i) by (unfold l; ring).
    generalize (l i) (al i) (Z (i - 1)) Hne. intros p q r Hp. field. exact Hp.
  - reflexivity.
  - reflexivity.
  - intros i Hi. unfold C. rewrite (cq_step n cf i Hi). reflexivity.
  - unfold C. rewrite cq_n. reflexivity.
  - intros i Hi. rewrite unit_h. unfold B, bf. field.
  - intros i Hi. rewrite unit_h. unfold D, df. field.
Qed.

Lemma sp_coefs_u_ok : exists co b c d al mu z, sp_coefs_u y = Ok co /\ finite3 n co b c d /\
  swept n unit_node Y al mu z b c d /\ (forall i, al i == 3 * (Y (i + 1)%nat - Y i) - 3 * (Y i - Y (i - 1)%nat))%Q /\
  (c n == 0 /\ d n == 0 /\ b n == slope (b (n - 1)%nat) (c (n - 1)%nat) (d (n - 1)%nat) 1)%Q.
Proof.
  unfold sp_coefs_u. fold n.
  assert (n - 1 < n) as Hn by (subst n; lia).
  match goal with |- context [ofold ?f (seq 1 (n - 1)) (zeros n)] => set (fa := f) end.
  destruct (ofold_seq_inv
    (fun i la => repv n la (fun j => Some (if (1 <=? j) && (j <? i) then al j else 0%Q)))
    fa (n - 1) 1 (zeros n)) as (la & Ea & R).
  { eapply repv_ext; [apply repv_repeat|]. intros i _. cbv beta.
    destruct (Nat.leb_spec 1 i), (Nat.ltb_spec i 1); try lia; reflexivity. }
  { intros k la Hk R. unfold fa. rewrite !get_ok by (subst n; lia). cbn [obind].
    unfold fsub, fmul, lift2, fz.
    destruct (repv_set n la _ k (Some (al k)) R ltac:(lia)) as (la' & E & R').
    exists la'. split; [exact E|]. eapply repv_ext; [exact R'|]. intros j Hj. unfold upd1.
    destruct (Nat.eqb_spec j k) as [->|];
      [destruct (Nat.ltb_spec k (k + 1)), (Nat.leb_spec 1 k); try lia; reflexivity|].
    destruct (Nat.ltb_spec j k), (Nat.ltb_spec j (k + 1)); try lia; reflexivity. }
  assert (forall i, 1 <= i < n -> oget la i = Ok (Some (al i))) as Ga.
  { intros i Hi. rewrite (repv_get _ _ _ i R) by lia.
    destruct (Nat.leb_spec 1 i), (Nat.ltb_spec i (1 + (n - 1))); try lia; reflexivity. }
  rewrite Ea. cbn [obind]. clear Ea R fa.
  match goal with |- context [ofold ?f (seq 1 (n - 1)) _] => set (fs := f) end.
  destruct (forward_ok n g fs) as (mu & z & Es & Gm).
  { intros i mu z Hi Gm Gz. unfold fs. rewrite Gm. cbn [obind]. rewrite Ga by lia. rewrite Gz.
    rewrite (mzu_step i) by lia. unfold fsub, fmul, lift2, fz.
    pose proof (q_pos_ne _ (lu_pos i)) as Hne.
    transitivity (mu <- oset mu i (fdiv (Some 1%Q) (Some (l i))) ;;
      z <- oset z i (fdiv (Some (al i - snd (mz g (i - 1)))%Q) (Some (l i))) ;; Ok (mu, z)); [reflexivity|].
    rewrite (fdiv_ok _ _ Hne), (fdiv_ok _ _ Hne). reflexivity. }
  { lia. }
  rewrite Es. cbn [obind]. clear Es fs.
  match goal with |- context [ofold ?f (rev (seq 0 n)) _] => set (fb := f) end.
  destruct (backward_ok n cf bf df fb) as (b & c & d & Eb & Rb & Rc & Rd).
  { intros i b c d c1 Hi Gc. destruct (Gm i Hi) as (G1 & G2). unfold fb. rewrite G2, G1, Gc. cbn [obind].
    rewrite !get_ok by (subst n; lia). reflexivity. }
  rewrite Eb. cbn [obind]. clear Eb fb. fold C in Rb, Rc, Rd.
  change (repv (n + 1) b (sel n 0 B)) in Rb. change (repv (n + 1) d (sel n 0 D)) in Rd.
  rewrite (repv_get _ _ _ (n - 1) Rb), (repv_get _ _ _ (n - 1) Rc), (repv_get _ _ _ (n - 1) Rd) by lia.
  rewrite !sel_some by exact Hn. cbn [obind].
  unfold fsub, fadd, fmul, lift2, fz.
  set (v := (B (n - 1)%nat + _ + _)%Q).
  destruct (repv_set (n + 1) b _ n (Some v) Rb ltac:(lia)) as (b' & E' & Rb'). rewrite E'. cbn [obind].
  set (D' := fun i => if i =? n then 0%Q else D i).
  set (B' := fun i => if i =? n then v else B i).
  exists (b', c, d), B', C, D', al, M, Z.
  split; [reflexivity|]. split; [|split; [|split]].
  - split; [|split].
    + eapply repv_ext; [exact Rb'|]. intros i Hi. unfold upd1, B'.
      destruct (Nat.eqb_spec i n); [reflexivity|]. apply sel_some. lia.
    + eapply repv_ext; [exact Rc|]. intros i Hi. destruct (Nat.eq_dec i n) as [->|].
      * rewrite sel_last. unfold C. rewrite cq_n. reflexivity.
      * apply sel_some. lia.
    + eapply repv_ext; [exact Rd|]. intros i Hi. unfold D'. destruct (Nat.eqb_spec i n) as [->|].
      * apply sel_last.
      * apply sel_some. lia.
  - destruct swept_uniform. constructor; try assumption.
    + intros i Hi. unfold B'. destruct (Nat.eqb_spec i n); [lia|]. auto.
    + intros i Hi. unfold D'. destruct (Nat.eqb_spec i n); [lia|]. auto.
  - intros i. reflexivity.
  - split; [unfold C; rewrite cq_n; reflexivity|]. unfold B', D'. rewrite Nat.eqb_refl.
    split; [reflexivity|]. destruct (Nat.eqb_spec (n - 1) n); [lia|]. unfold slope, v. ring.
Qed.
End Uniform.

(* ---------- evaluation ---------- *)
Lemma at_ok {A} (l : list A) (n i : nat) (v : nat -> A) : repv n l v -> i < n -> at_ l i = Ok (v i).
Proof. intros (L & H) Hi. unfold at_. rewrite H by exact Hi. reflexivity. Qed.
Lemma at_node l i : i < length l -> at_ l i = Ok (node l i).
Proof. intros H. unfold at_, node. rewrite (nth_error_nth' l 0%Q H). reflexivity. Qed.

Lemma sp_cubic_ok n y co b c d k th : finite3 n co b c d -> length y = n + 1 -> k < n + 1 ->
  exists r, sp_cubic y co k (Some th) = Ok (Some r) /\ (r == cubic (node y k) (b k) (c k) (d k) th)%Q.
Proof.
  destruct co as ((lb & lc) & ld). intros (Rb & Rc & Rd) Ly Hk. unfold sp_cubic.
  rewrite at_node by lia. rewrite (at_ok lb _ k _ Rb Hk), (at_ok lc _ k _ Rc Hk), (at_ok ld _ k _ Rd Hk). cbn [obind].
  eexists. split; [reflexivity|]. unfold cubic. ring.
Qed.
Lemma sp_before_ok n y co b c d th : finite3 n co b c d -> length y = n + 1 ->
  exists r, sp_before y co (Some th) = Ok (Some r) /\ (r == node y 0 + b 0%nat * th)%Q.
Proof.
  destruct co as ((lb & lc) & ld). intros (Rb & Rc & Rd) Ly. unfold sp_before.
  rewrite at_node by lia. rewrite (at_ok lb _ 0 _ Rb ltac:(lia)). cbn [obind].
  eexists. split; [reflexivity|]. reflexivity.
Qed.

Lemma node_mono x : increasing x -> forall i j, i < j -> j < length x -> (node x i < node x j)%Q.
Proof.
  intros H i j Hij Hj. apply (increasing_lt x H i j); [exact Hij| |]; unfold node; apply nth_error_nth'; lia.
Qed.

Lemma sp_eval_ok n y x co b c d t : increasing x -> length x = n + 1 -> length y = n + 1 -> 1 <= n ->
  finite3 n co b c d ->
  (c n == 0 /\ d n == 0 /\ b n == slope (b (n - 1)%nat) (c (n - 1)%nat) (d (n - 1)%nat) (node x (n - 1 + 1) - node x (n - 1)))%Q ->
  exists r, sp_eval y x co t = Ok (Some r) /\ spline_at n (node x) (node y) b c d t r.
Proof.
  intros Hx Lx Ly Hn F (Cn & Dn & Bn). unfold sp_eval.
  destruct (lower_bound_ok qlt qlt_order x t (nondecreasing_ascending x (increasing_weak x Hx))) as (o & E & S).
  rewrite E. cbn [obind]. destruct o as [k|].
  - destruct S as ((a & Na & La) & S). assert (k < length x) as Hk by (apply nth_error_Some; congruence).
    rewrite at_node by exact Hk. cbn [obind]. unfold fsub, lift2, fz.
    destruct (sp_cubic_ok n y co b c d k (t - node x k)%Q F Ly ltac:(lia)) as (r & Er & Hr).
    exists r. split; [exact Er|]. apply qlt_false in La.
    assert (a = node x k) as -> by (unfold node; rewrite (nth_error_nth _ _ _ Na); reflexivity).
    destruct (Nat.eq_dec k n) as [->|Hkn].
    + right. right. split; [exact La|]. rewrite Hr. unfold cubic. rewrite Cn, Dn, Bn. ring.
    + right. left. exists k. split; [lia|]. split; [exact La|]. split; [|exact Hr].
      apply qlt_true. apply (S (k + 1) (node x (k + 1)) ltac:(lia)). unfold node. apply nth_error_nth'. lia.
  - rewrite at_node by lia. cbn [obind]. unfold fsub, lift2, fz.
    destruct (sp_before_ok n y co b c d (t - node x 0)%Q F Ly) as (r & Er & Hr).
    exists r. split; [exact Er|]. left. split.
    + apply qlt_true. apply (S 0 (node x 0)). unfold node. apply nth_error_nth'. lia.
    + rewrite Hr. unfold slope. ring.
Qed.
