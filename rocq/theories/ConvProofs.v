From Coq Require Import QArith Lqa Lia.
From Verif Require Import Base VecProofs MatProofs InterpModel InterpSpec InterpProofs ConvModel ConvSpec.
Local Open Scope nat_scope.

Lemma samples_nth l i : i < length l -> nth_error l i = Some (samples l i).
Proof. intro H. unfold samples. now apply nth_error_nth'. Qed.

Lemma oget_samples l i : i < length l -> oget l i = Ok (samples l i).
Proof. intro H. apply oget_Ok. now apply samples_nth. Qed.

Lemma shifted_increasing x s : increasing x -> increasing (shifted x s).
Proof.
  intros H i a b A B. unfold shifted in *. rewrite nth_error_map in A, B.
  destruct (nth_error x i) as [p|] eqn:P; [|discriminate]. destruct (nth_error x (i + 1)) as [q|] eqn:Q; [|discriminate].
  injection A as <-. injection B as <-. pose proof (H i p q P Q). lra.
Qed.

Lemma width_ok x i : 1 < length x -> i < length x -> conv_dx x i = Ok (width (samples x) i).
Proof.
  intros L I. unfold conv_dx. rewrite oget_samples by exact I. cbn [obind]. destruct i as [|i].
  - cbn [Nat.eqb]. rewrite oget_samples by (cbn; exact L). reflexivity.
  - cbn [Nat.eqb]. rewrite oget_samples by lia. cbn [obind width]. now replace (S i - 1) with i by lia.
Qed.

Lemma conv_add_nth r tmp y dx k a b : nth_error r k = Some (Some a) -> nth_error tmp k = Some (Some b) ->
  nth_error (conv_add r tmp y dx) k = Some (Some (a + y * b * dx)%Q).
Proof.
  intros A B. unfold conv_add. rewrite nth_error_map.
  assert (C : nth_error (combine r tmp) k = Some (Some a, Some b)).
  { revert r tmp A B. induction k; intros [|u r] [|v tmp] A B; try discriminate; cbn in *.
    - injection A as ->. injection B as ->. reflexivity.
    - now apply IHk. }
  rewrite C. reflexivity.
Qed.

(* one row of interpolated kernel values per sample *)
Lemma kernel_row x y2 s : increasing x -> 2 <= length x -> length y2 = length x ->
  exists tmp g, interp_vec y2 (shifted x s) x = Ok tmp /\ length tmp = length x /\
    forall k, k < length x -> nth_error tmp k = Some (Some (g k)) /\
      piecewise (shifted x s) y2 (samples x k) (g k).
Proof.
  intros H L LY.
  destruct (interp_vec_ok y2 (shifted x s) x (shifted_increasing x s H)) as (tmp & E & F).
  { unfold shifted. now rewrite map_length. }
  { unfold shifted. now rewrite map_length. }
  exists tmp, (fun k => match nth_error tmp k with Some (Some v) => v | _ => 0%Q end).
  split; [exact E|]. clear E.
  assert (LT : length tmp = length x). { clear -F. induction F; cbn; congruence. }
  split; [exact LT|]. intros k K.
  assert (G : exists v, nth_error tmp k = Some (Some v) /\ piecewise (shifted x s) y2 (samples x k) v).
  { pose proof (samples_nth x k K) as N. clear -F N. generalize (samples x k) N. clear N. revert k.
    generalize (shifted x s) F. clear F. intros z F. induction F as [|t o xs os H F IH]; intros k t' N.
    - destruct k; discriminate.
    - destruct k; cbn in N.
      + injection N as ->. destruct H as (v & -> & P). exists v. easy.
      + exact (IH k t' N). }
  destruct G as (v & -> & P). easy.
Qed.

Lemma choice_rows : forall (n : nat) (P : nat -> (nat -> Q) -> Prop),
  (forall i, i < n -> exists g, P i g) -> exists K, forall i, i < n -> P i (K i).
Proof.
  induction n; intros P H.
  - exists (fun _ _ => 0%Q). intros; lia.
  - destruct (IHn P) as (K & HK). { intros; apply H; lia. }
    destruct (H n) as (g & G); [lia|].
    exists (fun i => if i =? n then g else K i). intros i I. destruct (Nat.eqb_spec i n) as [->|]; [exact G|].
    apply HK. lia.
Qed.

Lemma convolve_ok x y1 y2 : increasing x -> 4 <= length x -> length y1 = length x -> length y2 = length x ->
  exists r K, convolve x y1 y2 = Ok r /\ length r = length x /\
    (forall i k, i < length x -> k < length x ->
       piecewise (shifted x (samples x i)) y2 (samples x k) (K i k)) /\
    forall k, k < length x -> exists v, nth_error r k = Some (Some v) /\
      (v == qsum (fun i => samples y1 i * K i k * width (samples x) i) (length x))%Q.
Proof.
  intros H L L1 L2.
  destruct (choice_rows (length x) (fun i g => exists tmp,
     interp_vec y2 (shifted x (samples x i)) x = Ok tmp /\ length tmp = length x /\
    forall k, k < length x -> nth_error tmp k = Some (Some (g k)) /\
      piecewise (shifted x (samples x i)) y2 (samples x k) (g k))) as (K & HK).
  { intros i I. destruct (kernel_row x y2 (samples x i) H ltac:(lia) L2) as (tmp & g & A & B & C).
    exists g, tmp. easy. }
  unfold convolve. rewrite L1, L2, Nat.eqb_refl. cbn [check obind].
  rewrite (proj2 (Nat.ltb_lt 3 (length x))) by lia. cbn [check obind].
  set (step := fun r i => _).
  assert (G : forall m, m <= length x -> exists r, ofold step (seq 0 m) (repeat (Some 0%Q) (length x)) = Ok r /\
    length r = length x /\ forall k, k < length x -> exists v, nth_error r k = Some (Some v) /\
      (v == qsum (fun i => samples y1 i * K i k * width (samples x) i) m)%Q).
  { induction m as [|m IH]; intro M.
    - exists (repeat (Some 0%Q) (length x)). split; [reflexivity|]. split; [apply repeat_length|].
      intros k Hk. exists 0%Q. split; [now apply nth_error_repeat|reflexivity].
    - destruct IH as (r & E & LR & R); [lia|]. rewrite seq_S, ofold_app, E. cbn [obind plus ofold].
      destruct (HK m) as (tmp & T1 & T2 & T3); [lia|].
      unfold step at 1. rewrite width_ok by lia. cbn [obind]. rewrite oget_samples by lia. cbn [obind].
      change (map (fun t => (t + samples x m)%Q) x) with (shifted x (samples x m)). rewrite T1. cbn [obind].
      rewrite oget_samples by lia. cbn [obind]. rewrite LR, T2, Nat.eqb_refl. cbn [check obind].
      eexists; split; [reflexivity|]. split.
      { unfold conv_add. rewrite map_length, combine_length. lia. }
      intros k Hk. destruct (R k Hk) as (v & V & EV). destruct (T3 k Hk) as [U _].
      eexists; split; [apply (conv_add_nth _ _ _ _ _ _ _ V U)|]. cbn [qsum]. now rewrite EV. }
  destruct (G (length x) (le_n _)) as (r & E & LR & R). exists r, K. split; [exact E|]. split; [exact LR|].
  split; [|exact R]. intros i k I Hk. destruct (HK i I) as (tmp & _ & _ & T). apply (T k Hk).
Qed.

Lemma qsum_ext f g n : (forall i, i < n -> (f i == g i)%Q) -> (qsum f n == qsum g n)%Q.
Proof. induction n; intro H; cbn [qsum]; [reflexivity|]. rewrite IHn, (H n) by (intros; auto with arith || apply H; lia). reflexivity. Qed.

Lemma qsum_add f g n : (qsum (fun i => f i + g i) n == qsum f n + qsum g n)%Q.
Proof. induction n; cbn [qsum]; [reflexivity|]. rewrite IHn. ring. Qed.

Lemma qsum_mul c f n : (qsum (fun i => c * f i) n == c * qsum f n)%Q.
Proof. induction n; cbn [qsum]; [ring|]. rewrite IHn. ring. Qed.
