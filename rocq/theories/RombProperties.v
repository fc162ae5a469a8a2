(* C92: integration of functions and clipping of outliers. *)
From Coq Require Import QArith Qabs Permutation.
From Verif Require Import Base OrderModel ReduceModel ReduceSpec RombModel RombSpec RombProofs RombProofs2.
Local Open Scope nat_scope.

(* the result is the last value of the first row of Romberg's table whose last two values agree
   within the tolerance, among rows 1 to 15 *)
Theorem C92_result : forall f, regular f -> forall x0 x1 e n,
  1 <= n <= 15 -> agree f x0 x1 e n -> (forall j, 1 <= j -> j < n -> ~ agree f x0 x1 e j) ->
  exists r, integrate_func f x0 x1 e = Ok r /\ (r == romberg f x0 x1 n n)%Q.
Proof. exact integrate_stop. Qed.
Print Assumptions C92_result.

(* Finding: there is no limit on the number of rounds; when no row agrees before, the sixteenth one
   shifts an int by 32 bits *)
Theorem C92_shift_UB : forall f, regular f -> forall x0 x1 e,
  (forall n, 1 <= n -> n <= 15 -> ~ agree f x0 x1 e n) <-> integrate_func f x0 x1 e = UB.
Proof.
  intros f Hf x0 x1 e. split; [apply integrate_ub; exact Hf|]. intro U.
  destruct (integrate_cases f Hf x0 x1 e) as [[N _]|(n & r & _ & _ & _ & E & _)]; [exact N|congruence].
Qed.
Print Assumptions C92_shift_UB.
(* Finding: a jump is enough: with the default tolerance 2^-52, or any up to 2^-30 *)
Theorem C92_jump_UB : forall e, (e <= 1 # 2 ^ 30)%Q -> integrate_func spike 0 1 e = UB.
Proof.
  intros e He. apply integrate_ub; [exact spike_regular|]. intros n H1 H2. apply spike_never; assumption.
Qed.
Print Assumptions C92_jump_UB.

(* in all other cases there is a result; no execution lasts for ever *)
Theorem C92_total : forall f, regular f -> forall x0 x1 e,
  integrate_func f x0 x1 e = UB \/ exists n r, 1 <= n <= 15 /\ integrate_func f x0 x1 e = Ok r /\ (r == romberg f x0 x1 n n)%Q.
Proof.
  intros f Hf x0 x1 e. destruct (integrate_cases f Hf x0 x1 e) as [[_ U]|(n & r & Hn & _ & _ & E & R)]; [left; exact U|].
  right. exists n, r. auto.
Qed.
Print Assumptions C92_total.

(* polynomials up to degree 3 are integrated exactly, whatever the tolerance *)
Theorem C92_cubic : forall a0 a1 a2 a3 x0 x1 e, (0 <= e)%Q ->
  exists r, integrate_func (poly [a0; a1; a2; a3]) x0 x1 e = Ok r /\ (r == integral [a0; a1; a2; a3] x0 x1)%Q.
Proof. exact integrate_cubic. Qed.
Print Assumptions C92_cubic.

(* a function that vanishes at both ends and in the middle has the integral 0 ... *)
Theorem C92_three_zeros : forall f x0 x1 e, regular f -> (f x0 == 0)%Q -> (f x1 == 0)%Q -> (f ((x0 + x1) / 2) == 0)%Q ->
  exists r, integrate_func f x0 x1 e = Ok r /\ (r == 0)%Q.
Proof. exact three_zeros. Qed.
Print Assumptions C92_three_zeros.
(* ... Finding: even when it is a polynomial of degree 6, nowhere negative, and its integral is 1/210 *)
Theorem C92_exact_refuted : exists c, forall e,
  (forall x, (poly c x == (x * (x - 1) * (2 * x - 1)) * (x * (x - 1) * (2 * x - 1)))%Q) /\
  (integral c 0 1 == 1 # 210)%Q /\ exists r, integrate_func (poly c) 0 1 e = Ok r /\ (r == 0)%Q.
Proof.
  exists [0; 0; 1; -6; 13; -12; 4]%Q. intro e. split; [|split].
  - intro x. cbn [poly]. ring.
  - vm_compute. reflexivity.
  - apply three_zeros; [apply poly_regular| | |]; vm_compute; reflexivity.
Qed.
Print Assumptions C92_exact_refuted.

(* an interval of length 0 *)
Theorem C92_empty : forall f x0 x1 e, regular f -> (x0 == x1)%Q -> exists r, integrate_func f x0 x1 e = Ok r /\ (r == 0)%Q.
Proof. exact empty_interval. Qed.
Print Assumptions C92_empty.

(* exchanging the ends changes the sign *)
Theorem C92_reversed : forall f x0 x1 e, regular f ->
  (integrate_func f x0 x1 e = UB /\ integrate_func f x1 x0 e = UB) \/
  exists r r', integrate_func f x0 x1 e = Ok r /\ integrate_func f x1 x0 e = Ok r' /\ (r' == - r)%Q.
Proof.
  intros f x0 x1 e Hf.
  destruct (integrate_scale f f x0 x1 x1 x0 (- (1)) e Hf Hf) as [H|(r & r' & A & B & C)].
  - intro H. discriminate H.
  - intro n. apply trapezium_reversed; [exact Hf|apply pow2_pos].
  - left. exact H.
  - right. exists r, r'. split; [exact A|]. split; [exact B|]. rewrite C. ring.
Qed.
Print Assumptions C92_reversed.

(* the integral of a multiple is the multiple of the integral *)
Theorem C92_multiple : forall f x0 x1 e s, regular f -> ~ (s == 0)%Q ->
  (integrate_func f x0 x1 e = UB /\ integrate_func (fun x => s * f x)%Q x0 x1 e = UB) \/
  exists r r', integrate_func f x0 x1 e = Ok r /\ integrate_func (fun x => s * f x)%Q x0 x1 e = Ok r' /\ (r' == s * r)%Q.
Proof.
  intros f x0 x1 e s Hf Hs. apply integrate_scale; [exact Hf| |exact Hs|].
  - intros x y H. rewrite (Hf x y H). reflexivity.
  - intro n. apply trapezium_multiple. apply pow2_pos.
Qed.
Print Assumptions C92_multiple.

(* ---- sigma_clip ---- *)
(* a value is kept when it is a number whose distance to the median is at most sigma times 1.48
   times the median distance.  NaNs do not count and are not kept *)
Theorem C92_clip : forall perm v sigma, (forall l, Permutation (perm l) l) -> numbers v <> [] ->
  exists med mad r, sigma_clip perm v sigma = Ok r /\
    order_stat Z.ltb (numbers v) (length (numbers v) / 2) med /\
    order_stat Z.ltb (deviations med (numbers v)) (length (numbers v) / 2) mad /\
    length r = length v /\
    forall i x, nth_error v i = Some x ->
      exists b, nth_error r i = Some b /\
        (b = true <-> exists a, x = Num a /\ (inject_Z (Z.abs (a - med)) <= sigma * (148 # 100) * inject_Z mad)%Q).
Proof. exact clip_ok. Qed.
Print Assumptions C92_clip.

(* more than half of the numbers are kept, from sigma = 1/1.48 on *)
Theorem C92_clip_half : forall perm v sigma r, (forall l, Permutation (perm l) l) -> numbers v <> [] -> (100 # 148 <= sigma)%Q ->
  sigma_clip perm v sigma = Ok r -> length (numbers v) / 2 < length (filter (fun b => b) r).
Proof. exact clip_half. Qed.
Print Assumptions C92_clip_half.

Theorem C92_clip_nan : forall perm v sigma, (forall l, Permutation (perm l) l) -> v <> [] -> numbers v = [] ->
  sigma_clip perm v sigma = Ok (map (fun _ => false) v).
Proof. exact clip_nan. Qed.
Print Assumptions C92_clip_nan.

(* the median of nothing does not exist *)
Theorem C92_clip_empty_abort : forall perm sigma, sigma_clip perm [] sigma = CheckFail.
Proof. reflexivity. Qed.
Print Assumptions C92_clip_empty_abort.

(* Finding: when more than half of the numbers are equal, every other one is discarded, however
   close it is and however large sigma *)
Theorem C92_clip_equal_refuted : forall sigma,
  sigma_clip (fun l => l) [Num 1000000; Num 1000000; Num 1000000; Num 1000001; Num 999999] sigma = Ok [true; true; true; false; false].
Proof.
  intro sigma. unfold sigma_clip.
  change (median [Num 1000000; Num 1000000; Num 1000000; Num 1000001; Num 999999]) with (Ok (Num 1000000)). cbn [Base.obind].
  change (median (map (fun x => abs_diff x (Num 1000000)) [Num 1000000; Num 1000000; Num 1000000; Num 1000001; Num 999999]))
    with (Ok (Num 0)). cbn [Base.obind map abs_diff Z.sub].
  assert (E : (sigma * ((148 # 100) * inject_Z 0) == 0)%Q) by (change (inject_Z 0) with 0%Q; ring).
  unfold within. rewrite !E. reflexivity.
Qed.
Print Assumptions C92_clip_equal_refuted.

(* ---- examples ---- *)
(* x^4 from 0 to 1: one round gives 5/24, far from the tolerance; two are exact *)
Example romberg_quartic :
  Qred (romberg (poly [0; 0; 0; 0; 1]%Q) 0 1 1 1) = (5 # 24)%Q /\
  omap Qred (integrate_func (poly [0; 0; 0; 0; 1]%Q) 0 1 (1 # 1000)) = Ok (1 # 5)%Q.
Proof. split; vm_compute; reflexivity. Qed.
Example integrate_square : omap Qred (integrate_func (fun x => x * x)%Q 1 4 (1 # 1000000)) = Ok 21%Q.
Proof. vm_compute. reflexivity. Qed.
Example integrate_back : omap Qred (integrate_func (fun x => x * x)%Q 4 1 (1 # 1000000)) = Ok (-21)%Q.
Proof. vm_compute. reflexivity. Qed.
Example clip_outlier : sigma_clip (@rev fnum) [Num 10; Num 12; NaN; Num 9; Num 50; Num 11] 3%Q = Ok [true; true; false; true; false; true].
Proof. vm_compute. reflexivity. Qed.
