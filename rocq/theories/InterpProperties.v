From Coq Require Import QArith.
From Verif Require Import Base OrderModel InterpModel InterpSpec InterpProofs.
Local Open Scope nat_scope.

(* ---- C41 : linear interpolation ------------------------------------------------ *)

Theorem C41_point : forall dims y x t, increasing x -> 2 <= length x -> length y = length x ->
  exists r, interp_point dims dims y x t = Ok (Some r) /\ piecewise x y t r.
Proof. exact interp_point_ok. Qed.
Print Assumptions C41_point.

Theorem C41_vector : forall y x nx, increasing x -> 2 <= length x -> length y = length x ->
  exists r, interp_vec y x nx = Ok r /\ Forall2 (fun t o => exists v, o = Some v /\ piecewise x y t v) nx r.
Proof. exact interp_vec_ok. Qed.
Print Assumptions C41_vector.

(* both versions agree, whatever the nodes *)
Theorem C41_vector_is_point : forall dims y x nx, length y = length x ->
  interp_vec y x nx = if 2 <=? length y then omapl (interp_point dims dims y x) nx else CheckFail.
Proof. exact interp_vec_point. Qed.
Print Assumptions C41_vector_is_point.

(* [piecewise] determines the value, gives y[i] at x[i], stays between its neighbours in the
   range, and follows linear data everywhere *)
Theorem C41_function : forall x y t r r', increasing x -> piecewise x y t r -> piecewise x y t r' -> (r == r')%Q.
Proof. exact piecewise_unique. Qed.
Print Assumptions C41_function.
Theorem C41_nodes : forall x y i xi yi r, increasing x ->
  nth_error x i = Some xi -> nth_error y i = Some yi -> piecewise x y xi r -> (r == yi)%Q.
Proof. exact piecewise_node. Qed.
Print Assumptions C41_nodes.
Theorem C41_between : forall x y t r x0 xn, increasing x ->
  nth_error x 0 = Some x0 -> nth_error x (length x - 1) = Some xn -> (x0 <= t <= xn)%Q ->
  piecewise x y t r ->
  exists k ya yb, segment_for x k t /\ nth_error y k = Some ya /\ nth_error y (k + 1) = Some yb /\
    ((ya <= r <= yb)%Q \/ (yb <= r <= ya)%Q).
Proof. exact piecewise_between. Qed.
Print Assumptions C41_between.
Theorem C41_linear : forall x y a b t r, increasing x ->
  (forall i xi yi, nth_error x i = Some xi -> nth_error y i = Some yi -> (yi == a * xi + b)%Q) ->
  piecewise x y t r -> (r == a * t + b)%Q.
Proof. exact piecewise_linear. Qed.
Print Assumptions C41_linear.

(* with errors: same value, and the errors of the two nodes added in quadrature with the
   weights of the interpolation (given here without the square root) *)
Theorem C41_with_errors : forall dims y e x nx,
  increasing x -> 2 <= length x -> length y = length x -> length e = length x ->
  exists r, interp_vec_err dims dims y e x nx = Ok r /\
    Forall2 (fun t o => exists v s k xa xb ea eb, o = Some (v, s) /\ piecewise x y t v /\
      segment_for x k t /\ nth_error x k = Some xa /\ nth_error x (k + 1) = Some xb /\
      nth_error e k = Some ea /\ nth_error e (k + 1) = Some eb /\
      (s * ((xb - xa) * (xb - xa)) == ea * ea * ((xb - t) * (xb - t)) + eb * eb * ((t - xa) * (t - xa)))%Q) nx r.
Proof. exact interp_err_ok. Qed.
Print Assumptions C41_with_errors.
(* the size of the error vector is not checked *)
Theorem C41_errors_size_refuted : exists dims y e x nx,
  increasing x /\ 2 <= length x /\ length y = length x /\ interp_vec_err dims dims y e x nx = UB.
Proof.
  exists [2], [1; 2]%Q, [1]%Q, [0; 1]%Q, [1#2]%Q. split; [|split; [|split]]; try (vm_compute; reflexivity).
  - intros [|[|i]] a b Ha Hb; cbn in *; try discriminate; [injection Ha as <-; injection Hb as <-; reflexivity|].
    destruct i; discriminate.
Qed.
Print Assumptions C41_errors_size_refuted.

(* a repeated last node: the value at that node is not a number *)
Theorem C41_repeated_node_refuted : exists y x t, nondecreasing x /\ In t x /\ length y = length x /\
  interp_vec y x [t] = Ok [None].
Proof.
  exists [1; 2; 3]%Q, [0; 1; 1]%Q, 1%Q. split; [|split; [|split]]; try (vm_compute; reflexivity).
  - intros [|[|[|i]]] a b Ha Hb; cbn in *; try discriminate; try (injection Ha as <-; injection Hb as <-; discriminate).
    destruct i; discriminate.
  - simpl. auto.
Qed.
Print Assumptions C41_repeated_node_refuted.

Theorem C41_sizes : forall y x nx, length y <> length x \/ length y < 2 -> interp_vec y x nx = CheckFail.
Proof.
  intros y x nx H. unfold interp_vec. destruct (Nat.eqb_spec (length y) (length x)); [|reflexivity]. cbn [check obind].
  destruct (Nat.leb_spec 2 (length y)); [lia|reflexivity].
Qed.
Print Assumptions C41_sizes.
Theorem C41_point_sizes : forall yd xd y x t, yd <> xd \/ length y < 2 -> interp_point yd xd y x t = CheckFail.
Proof.
  intros yd xd y x t H. unfold interp_point. destruct (list_eq_dec Nat.eq_dec yd xd); [|reflexivity]. cbn [check obind].
  destruct (Nat.leb_spec 2 (length y)); [|reflexivity]. destruct H; [contradiction|lia].
Qed.
Print Assumptions C41_point_sizes.

Example C41_ex :
  let x := [0; 1; 3]%Q in let y := [2; 4; 0]%Q in
  increasing x /\
  omap (map (fun o => match o with Some r => Some (Qred r) | None => None end)) (interp_vec y x [-1; 0; 1#2; 1; 2; 3; 4]%Q)
    = Ok [Some 0; Some 2; Some 3; Some 4; Some 2; Some 0; Some (-2)]%Q.
Proof.
  split; [|vm_compute; reflexivity].
  intros [|[|[|i]]] a b Ha Hb; cbn in *; try discriminate; try (injection Ha as <-; injection Hb as <-; reflexivity).
  destruct i; discriminate.
Qed.
