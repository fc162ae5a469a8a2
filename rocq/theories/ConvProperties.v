(* C69: convolution of two functions sampled on the same axis (math/transform.hpp). *)
From Coq Require Import QArith Lqa Lia.
From Verif Require Import Base InterpModel InterpSpec InterpProofs ConvModel ConvSpec ConvProofs.
Local Open Scope nat_scope.

(* convolve(x,y1,y2)[k] is the sum over i of y1[i] dx[i] y2(x[k] - x[i]), where y2 is interpolated linearly
   between its samples and extended by its first and last segments, and dx[i] is the distance to the
   previous sample (to the next one for the first sample). *)
Theorem C69_sum : forall x y1 y2,
  increasing x -> 4 <= length x -> length y1 = length x -> length y2 = length x ->
  exists r K, convolve x y1 y2 = Ok r /\ length r = length x /\
    (forall i k, i < length x -> k < length x ->
       piecewise (shifted x (samples x i)) y2 (samples x k) (K i k)) /\
    forall k, k < length x -> exists v, nth_error r k = Some (Some v) /\
      (v == qsum (fun i => samples y1 i * K i k * width (samples x) i) (length x))%Q.
Proof. exact convolve_ok. Qed.
Print Assumptions C69_sum.

(* For a kernel a t + b the sum is exact: the kernel is evaluated at the differences x[k] - x[i]. *)
Theorem C69_affine : forall x y1 y2 a b,
  increasing x -> 4 <= length x -> length y1 = length x -> length y2 = length x ->
  (forall i, i < length x -> (samples y2 i == a * samples x i + b)%Q) ->
  exists r, convolve x y1 y2 = Ok r /\
    forall k, k < length x -> exists v, nth_error r k = Some (Some v) /\
      (v == qsum (fun i => samples y1 i * (a * (samples x k - samples x i) + b) * width (samples x) i)
              (length x))%Q.
Proof.
  intros x y1 y2 a b H L L1 L2 A. destruct (convolve_ok x y1 y2 H L L1 L2) as (r & K & E & _ & P & R).
  exists r. split; [exact E|]. intros k Hk. destruct (R k Hk) as (v & V & EV). exists v. split; [exact V|].
  rewrite EV. apply qsum_ext. intros i I.
  assert (KE : (K i k == a * samples x k + (b - a * samples x i))%Q).
  { apply (piecewise_linear (shifted x (samples x i)) y2 a (b - a * samples x i)) with (3 := P i k I Hk).
    - now apply shifted_increasing.
    - intros j xj yj X Y. unfold shifted in X. rewrite nth_error_map in X.
      destruct (nth_error x j) as [q|] eqn:Q; [|discriminate]. injection X as <-.
      assert (J : j < length x) by (apply nth_error_Some; congruence).
      rewrite (samples_nth x j J) in Q. injection Q as <-.
      rewrite (samples_nth y2 j) in Y by lia. injection Y as <-. rewrite (A j J). ring. }
  rewrite KE. ring.
Qed.
Print Assumptions C69_affine.

(* The result is linear in the first function. *)
Theorem C69_linear : forall x u w y y2 p q,
  increasing x -> 4 <= length x -> length u = length x -> length w = length x -> length y = length x ->
  length y2 = length x ->
  (forall i, i < length x -> (samples y i == p * samples u i + q * samples w i)%Q) ->
  exists r ru rw, convolve x y y2 = Ok r /\ convolve x u y2 = Ok ru /\ convolve x w y2 = Ok rw /\
    forall k, k < length x -> exists v vu vw, nth_error r k = Some (Some v) /\
      nth_error ru k = Some (Some vu) /\ nth_error rw k = Some (Some vw) /\ (v == p * vu + q * vw)%Q.
Proof.
  intros x u w y y2 p q H L Lu Lw Ly L2 A.
  destruct (convolve_ok x y y2 H L Ly L2) as (r & K & E & _ & P & R).
  destruct (convolve_ok x u y2 H L Lu L2) as (ru & Ku & Eu & _ & Pu & Ru).
  destruct (convolve_ok x w y2 H L Lw L2) as (rw & Kw & Ew & _ & Pw & Rw).
  exists r, ru, rw. repeat (split; [assumption|]). intros k Hk.
  destruct (R k Hk) as (v & V & EV). destruct (Ru k Hk) as (vu & Vu & EVu). destruct (Rw k Hk) as (vw & Vw & EVw).
  exists v, vu, vw. repeat (split; [assumption|]). rewrite EV, EVu, EVw, <- !qsum_mul, <- qsum_add.
  apply qsum_ext. intros i I. pose proof (shifted_increasing x (samples x i) H) as S.
  rewrite (A i I), (piecewise_unique _ _ _ _ _ S (Pu i k I Hk) (P i k I Hk)),
    (piecewise_unique _ _ _ _ _ S (Pw i k I Hk) (P i k I Hk)). ring.
Qed.
Print Assumptions C69_linear.

(* Samples of different sizes are refused, and so are axes of fewer than four values (the message of the
   check speaks of three). *)
Theorem C69_refused : forall x y1 y2,
  length y1 <> length x \/ length y2 <> length x \/ length x < 4 -> convolve x y1 y2 = CheckFail.
Proof.
  intros x y1 y2 H. unfold convolve.
  destruct (Nat.eqb_spec (length x) (length y1)); [|reflexivity]. cbn [check obind].
  destruct (Nat.eqb_spec (length x) (length y2)); [|reflexivity]. cbn [check obind].
  destruct (Nat.ltb_spec 3 (length x)); [lia|reflexivity].
Qed.
Print Assumptions C69_refused.

(* Finding: outside its samples the kernel is extrapolated, not taken as zero, even if it vanishes at both
   ends: the convolution of two non-negative functions can be negative. *)
Theorem C69_positive_refuted : exists x y1 y2 r v,
  increasing x /\ Forall (fun q => 0 <= q)%Q y1 /\ Forall (fun q => 0 <= q)%Q y2 /\
  samples y2 0 = 0%Q /\ samples y2 (length x - 1) = 0%Q /\
  convolve x y1 y2 = Ok r /\ nth_error r 0 = Some (Some v) /\ (v < 0)%Q.
Proof.
  exists [0; 1; 2; 3]%Q, [0; 0; 0; 1]%Q, [0; 1; 1; 0]%Q. eexists _, _.
  split. { intros [|[|[|[|i]]]] a b A B; cbn in A, B; try discriminate; try (injection A as <-; injection B as <-; reflexivity).
    destruct i; discriminate. }
  split; [repeat constructor; discriminate|]. split; [repeat constructor; discriminate|].
  split; [reflexivity|]. split; [reflexivity|]. split; [vm_compute; reflexivity|].
  split; [reflexivity|]. reflexivity.
Qed.
Print Assumptions C69_positive_refuted.

(* example: a constant kernel *)
Example convolve_const :
  omap (map (option_map Qred)) (convolve [0; 1; 2; 4]%Q [1; 2; 3; 4]%Q [2; 2; 2; 2]%Q) =
  Ok (repeat (Some 28%Q) 4).
Proof. vm_compute. reflexivity. Qed.
