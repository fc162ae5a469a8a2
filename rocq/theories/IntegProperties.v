From Coq Require Import QArith.
From Verif Require Import Base OrderModel InterpModel InterpSpec IntegModel IntegSpec IntegProofs IntegProofs2 IntegProofs3.
Local Open Scope nat_scope.

(* ---- C25 : trapezoid integration ------------------------------------------------- *)

Theorem C25_trapezoids : forall x y, length x = length y -> x <> [] ->
  exists r, integrate x y = Ok r /\ (r == trap_sum x y)%Q.
Proof. exact integrate_ok. Qed.
Print Assumptions C25_trapezoids.

(* exact for linear data *)
Theorem C25_linear_data : forall x y a b front back, length x = length y ->
  (forall i xi yi, nth_error x i = Some xi -> nth_error y i = Some yi -> (yi == a * xi + b)%Q) ->
  nth_error x 0 = Some front -> nth_error x (length x - 1) = Some back ->
  (trap_sum x y == (a * back * back / 2 + b * back) - (a * front * front / 2 + b * front))%Q.
Proof. exact trap_linear. Qed.
Print Assumptions C25_linear_data.

(* additive when the grid is split at a node *)
Theorem C25_split : forall x1 c x2 y1 d y2, length x1 = length y1 ->
  (trap_sum (x1 ++ c :: x2) (y1 ++ d :: y2) == trap_sum (x1 ++ [c]) (y1 ++ [d]) + trap_sum (c :: x2) (d :: y2))%Q.
Proof. exact trap_split. Qed.
Print Assumptions C25_split.

(* linear in the values *)
Theorem C25_combination : forall a b x y z, length x = length y -> length x = length z ->
  (trap_sum x (map (fun p => a * fst p + b * snd p) (combine y z)) == a * trap_sum x y + b * trap_sum x z)%Q.
Proof. exact trap_combination. Qed.
Print Assumptions C25_combination.

(* cumul(x, y)[i] is the sum of the first i trapezoids *)
Theorem C25_cumul : forall x y, length x = length y -> x <> [] ->
  exists dr, cumul_xy x y = Ok dr /\ length dr = length x /\
  forall i, i < length x -> exists v, nth_error dr i = Some v /\ (v == sum_with trap (firstn i (segments (combine x y))))%Q.
Proof. exact cumul_ok. Qed.
Print Assumptions C25_cumul.
Theorem C25_cumul_last : forall x y, length x = length y -> x <> [] ->
  exists dr v r, cumul_xy x y = Ok dr /\ nth_error dr (length x - 1) = Some v /\ integrate x y = Ok r /\ (v == r)%Q.
Proof.
  intros x y L H. destruct (cumul_ok x y L H) as (dr & E & LD & A). destruct (integrate_ok x y L H) as (r & E2 & V).
  destruct (A (length x - 1)) as (v & N & W). { destruct x; [congruence|simpl; lia]. }
  exists dr, v, r. repeat (split; [assumption|]). rewrite W, V, firstn_all2; [reflexivity|]. rewrite segs_len by exact L. lia.
Qed.
Print Assumptions C25_cumul_last.

(* both read outside the arrays when these are empty *)
Theorem C25_empty_refuted : integrate [] [] = UB /\ cumul_xy [] [] = UB.
Proof. split; reflexivity. Qed.
Print Assumptions C25_empty_refuted.

(* integration between two abscissae: the area under the piecewise linear function *)
Theorem C25_bounds : forall x y, length x = length y -> nondecreasing x -> forall x0 x1 front back,
  nth_error x 0 = Some front -> nth_error x (length x - 1) = Some back ->
  (front <= x0)%Q -> (x0 <= x1)%Q -> (x1 <= back)%Q -> (x0 < back)%Q ->
  exists r, integrate_bounds x y x0 x1 = Ok (Some r) /\ (r == area x y x0 x1)%Q.
Proof. exact integrate_bounds_ok. Qed.
Print Assumptions C25_bounds.
Theorem C25_area_adds_up : forall x y a b c, nondecreasing x -> (a <= b)%Q -> (b <= c)%Q ->
  (area x y a b + area x y b c == area x y a c)%Q.
Proof. exact area_add. Qed.
Print Assumptions C25_area_adds_up.
Theorem C25_area_of_all : forall x y front back, nondecreasing x ->
  nth_error x 0 = Some front -> nth_error x (length x - 1) = Some back ->
  (area x y front back == trap_sum x y)%Q.
Proof. exact area_total. Qed.
Print Assumptions C25_area_of_all.
Theorem C25_area_linear_data : forall x y a b x0 x1 front back, length x = length y -> nondecreasing x ->
  (forall i xi yi, nth_error x i = Some xi -> nth_error y i = Some yi -> (yi == a * xi + b)%Q) ->
  nth_error x 0 = Some front -> nth_error x (length x - 1) = Some back ->
  (front <= x0)%Q -> (x0 <= x1)%Q -> (x1 <= back)%Q ->
  (area x y x0 x1 == (a * x1 * x1 / 2 + b * x1) - (a * x0 * x0 / 2 + b * x0))%Q.
Proof. exact area_linear. Qed.
Print Assumptions C25_area_linear_data.

(* at the last node both bounds are accepted by the checks, then used as npos *)
Theorem C25_bounds_end_refuted : forall x y, length x = length y -> nondecreasing x -> forall x0 back,
  nth_error x (length x - 1) = Some back -> (x0 == back)%Q -> integrate_bounds x y x0 x0 = UB.
Proof. exact integrate_bounds_end. Qed.
Print Assumptions C25_bounds_end_refuted.
(* reversed bounds do not give minus the integral *)
Theorem C25_reversed_bounds_refuted : exists x y a b r, increasing x /\ integrate_bounds x y b a = Ok (Some r) /\
  (a < b)%Q /\ ~ (r == - area x y a b)%Q.
Proof.
  exists [0; 1; 2]%Q, [0; 1; 0]%Q, (1 # 2)%Q, (3 # 2)%Q, ((1 # 2) * ((0 + (0 - 0) * ((3 # 2) - 0) / (2 - 0)) + (0 + (0 - 0) * ((1 # 2) - 0) / (2 - 0))) * ((1 # 2) - (3 # 2)))%Q.
  split; [|split; [vm_compute; reflexivity|split; [reflexivity|vm_compute; discriminate]]].
  intros [|[|[|i]]] a b Ha Hb; cbn in *; try discriminate; try (injection Ha as <-; injection Hb as <-; reflexivity).
  destruct i; discriminate.
Qed.
Print Assumptions C25_reversed_bounds_refuted.

(* with a hint: the same area, and the new hint can be used for any later interval *)
Theorem C25_hinted : forall x y h x0 x1 front back, length x = length y -> nondecreasing x ->
  nth_error x 0 = Some front -> nth_error x (length x - 1) = Some back ->
  (front <= x0)%Q -> (x0 <= x1)%Q -> (x1 <= back)%Q -> (x0 < back)%Q -> hint_ok x h x0 ->
  exists r j, integrate_hinted x y h x0 x1 = Ok (Some r, j) /\ (r == area x y x0 x1)%Q /\ hint_ok x (Some j) x1.
Proof. exact hinted_ok. Qed.
Print Assumptions C25_hinted.
(* at the last node: no hint is undefined, a hint gives 0 *)
Theorem C25_hinted_end_refuted : forall x y h x0 back, length x = length y -> increasing x ->
  nth_error x (length x - 1) = Some back -> (x0 == back)%Q ->
  (h = None -> integrate_hinted x y h x0 x0 = UB) /\
  (h <> None -> hint_ok x h x0 -> exists r, integrate_hinted x y h x0 x0 = Ok (Some r, length x - 1) /\ (r == 0)%Q).
Proof. exact hinted_end. Qed.
Print Assumptions C25_hinted_end_refuted.
(* a hint after x0 is not noticed *)
Theorem C25_bad_hint_refuted : exists x y h x0 x1 r j, increasing x /\
  integrate_hinted x y (Some h) x0 x1 = Ok (Some r, j) /\ ~ (r == area x y x0 x1)%Q /\
  (exists front, nth_error x 0 = Some front /\ (front <= x0)%Q).
Proof.
  exists [0; 1; 2]%Q, [0; 1; 0]%Q, 1, (1 # 2)%Q, (3 # 2)%Q, ((1 # 2) * ((1 + (0 - 1) * (((1 # 2) - 1) / (2 - 1))) + (1 + (0 - 1) * (((3 # 2) - 1) / (2 - 1)))) * ((3 # 2) - (1 # 2)))%Q, 1.
  split; [|split; [vm_compute; reflexivity|split; [vm_compute; discriminate|exists 0%Q; split; [reflexivity|vm_compute; discriminate]]]].
  intros [|[|[|i]]] a b Ha Hb; cbn in *; try discriminate; try (injection Ha as <-; injection Hb as <-; reflexivity).
  destruct i; discriminate.
Qed.
Print Assumptions C25_bad_hint_refuted.

(* binned data *)
Theorem C25_binned : forall lo hi y, length lo = length y -> length hi = length y ->
  exists r, integrate_binned 2 (length y) (lo ++ hi) y = Ok r /\ (r == sum_with bin_area (bins_of lo hi y))%Q.
Proof. exact binned_ok. Qed.
Print Assumptions C25_binned.
(* between two abscissae, contiguous bins: exact if both are in the same bin (also when both
   are in the last bin); otherwise the piece before the first complete bin is multiplied by
   the value of the wrong bin *)
Theorem C25_binned_bounds_refuted : forall lo hi y, length lo = length y -> length hi = length y ->
  (forall k a b, nth_error hi k = Some a -> nth_error lo (k + 1) = Some b -> (a == b)%Q) ->
  (forall k a b, nth_error lo k = Some a -> nth_error hi k = Some b -> (a <= b)%Q) ->
  forall x0 x1 front back, nth_error lo 0 = Some front -> nth_error hi (length y - 1) = Some back ->
  (front <= x0)%Q -> (x0 <= x1)%Q -> (x1 <= back)%Q ->
  exists i0 i1 r e, upper_bound qlt lo x0 = Ok i0 /\ lower_bound qlt lo x1 = Ok i1 /\
    integrate_binned_bounds 2 (length y) (lo ++ hi) y x0 x1 = Ok r /\
    match i0, i1 with
    | Some i0, Some i1 =>
        if i1 <? i0 then (e == 0)%Q
        else exists va vb b, nth_error y (i0 - 1) = Some va /\ nth_error y i0 = Some vb /\ nth_error lo i0 = Some b /\
             (e == (vb - va) * (b - x0))%Q
    | _, _ => (e == 0)%Q
    end /\
    (r == sum_with (bin_clip x0 x1) (bins_of lo hi y) + e)%Q.
Proof. exact binned_bounds_ok. Qed.
Print Assumptions C25_binned_bounds_refuted.

Example C25_ex :
  let x := [0; 1; 3; 4]%Q in let y := [2; 4; 0; 1]%Q in
  omap Qred (integrate x y) = Ok (15 # 2)%Q /\
  omap (map Qred) (cumul_xy x y) = Ok [0; 3; 7; 15 # 2]%Q /\
  Qred (trap_sum x y) = (15 # 2)%Q /\
  omap (option_map Qred) (integrate_bounds x y (1 # 2) 2) = Ok (Some (19 # 4))%Q /\
  Qred (area x y (1 # 2) 2) = (19 # 4)%Q /\
  omap (fun p => (option_map Qred (fst p), snd p)) (integrate_hinted x y (Some 0) (1 # 2) 2) = Ok (Some (19 # 4)%Q, 1) /\
  omap (fun p => (option_map Qred (fst p), snd p)) (integrate_hinted x y None (1 # 2) 2) = Ok (Some (19 # 4)%Q, 1) /\
  integrate_bounds x y 4 4 = UB /\ integrate_bounds x y (-1) 2 = CheckFail /\
  omap Qred (integrate_binned 2 2 [0; 1; 1; 3]%Q [5; 7]%Q) = Ok 19%Q /\
  omap Qred (integrate_binned_bounds 2 2 [0; 1; 1; 2]%Q [1; 3]%Q (1 # 2) (3 # 2)) = Ok 3%Q /\
  Qred (sum_with (bin_clip (1 # 2) (3 # 2)) (bins_of [0; 1]%Q [1; 2]%Q [1; 3]%Q)) = 2%Q.
Proof. repeat split; vm_compute; reflexivity. Qed.
