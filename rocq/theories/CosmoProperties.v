(* Theorems on cosmologies and cosmological functions of vecs (C109). *)
From Coq Require Import QArith Lia Lqa String.
From Verif Require Import Base InterpModel InterpSpec InterpProperties CosmoModel CosmoSpec CosmoProofs.
Local Open Scope nat_scope.

(* ---- C109: lumdist(), lookback_time(), propsize(), vuniverse() of a vec; get_cosmo() ---- *)
(* fewer redshifts than twice the number of nodes: the function of each *)
Theorem C109_small : forall f at0 at_nan rgen_log npt z, List.length z < 2 * npt ->
  vectorized f at0 at_nan rgen_log npt z = Ok (map (one f at0 at_nan) z).
Proof. intros f a n g npt z H. unfold vectorized. destruct (Nat.ltb_spec (List.length z) (2 * npt)); [reflexivity|lia]. Qed.
Print Assumptions C109_small.

(* more, and the smallest and the largest positive redshift a and b differ: the redshifts that are not
   positive get the value at 0, as one by one; the others the line between the values at two nodes
   around them, the nodes going from a to b; Finding: NaN gets 0 *)
Theorem C109_large : forall f at0 at_nan rgen_log npt z a b, 2 <= npt -> 2 * npt <= List.length z -> log_grid rgen_log ->
  positive_range z a b -> (a < b)%Q ->
  exists r g, vectorized f at0 at_nan rgen_log npt z = Ok r /\ List.length r = List.length z /\ List.length g = npt /\ increasing g /\
    (exists x0 xn, nth_error g 0 = Some x0 /\ nth_error g (npt - 1) = Some xn /\ (x0 == a)%Q /\ (xn == b)%Q) /\
    (forall i q, nth_error z i = Some (Some q) -> (q <= 0)%Q -> nth_error r i = Some (one f at0 at_nan (Some q))) /\
    (forall i, nth_error z i = Some None -> nth_error r i = Some (Some 0%Q)) /\
    (forall i q, nth_error z i = Some (Some q) -> (0 < q)%Q -> exists v, nth_error r i = Some (Some v) /\
       exists k xa xb, nth_error g k = Some xa /\ nth_error g (k + 1) = Some xb /\ (xa < xb)%Q /\ (xa <= q <= xb)%Q /\
         on_line xa (f xa) xb (f xb) q v).
Proof.
  intros f at0 nan rg npt z a b Hn Hl G R Lt. destruct (vectorized_spread f at0 nan rg npt z a b Hn Hl G R Lt) as (r & g & E & L & Lg & I & (x0 & xn & N0 & Nn & Z0 & Zn) & R0 & Rn & Rp).
  exists r, g. split; [exact E|]. split; [exact L|]. split; [exact Lg|]. split; [exact I|]. split; [exists x0, xn; auto|]. split; [|split; [exact Rn|]].
  - intros i q Ei Hq. rewrite (R0 i q Ei Hq). cbn [one]. rewrite (proj2 (Qle_bool_iff q 0) Hq). reflexivity.
  - intros i q Ei Hq. destruct (Rp i q Ei Hq) as (v & Ev & Pw). exists v. split; [exact Ev|]. destruct R as (_ & _ & _ & _ & Rg). pose proof (Rg q (nth_error_In _ _ Ei) Hq) as Hr.
    destruct (piecewise_in f g q v x0 xn I N0 ltac:(rewrite Lg; exact Nn) ltac:(split; lra) Pw) as (k & xa & xb & A & B & D & F & _ & H). exists k, xa, xb. auto.
Qed.
Print Assumptions C109_large.

(* for a function that increases: the result keeps the order of the redshifts, and differs from the function by at
   most the difference of its values at the two nodes *)
Theorem C109_increasing : forall f at0 at_nan rgen_log npt z a b, 2 <= npt -> 2 * npt <= List.length z -> log_grid rgen_log ->
  positive_range z a b -> (a < b)%Q -> (forall x y, (x <= y)%Q -> (f x <= f y)%Q) ->
  exists r g, vectorized f at0 at_nan rgen_log npt z = Ok r /\ List.length g = npt /\ increasing g /\
    (forall i q v, nth_error z i = Some (Some q) -> (0 < q)%Q -> nth_error r i = Some (Some v) ->
       exists k xa xb, nth_error g k = Some xa /\ nth_error g (k + 1) = Some xb /\
         (f xa <= v <= f xb)%Q /\ (f xa <= f q <= f xb)%Q /\ (- (f xb - f xa) <= v - f q <= f xb - f xa)%Q) /\
    (forall i j q q' v v', nth_error z i = Some (Some q) -> nth_error z j = Some (Some q') -> (0 < q)%Q -> (q <= q')%Q ->
       nth_error r i = Some (Some v) -> nth_error r j = Some (Some v') -> (v <= v')%Q).
Proof.
  intros f at0 nan rg npt z a b Hn Hl G R Lt Mf. destruct (vectorized_spread f at0 nan rg npt z a b Hn Hl G R Lt) as (r & g & E & L & Lg & I & (x0 & xn & N0 & Nn & Z0 & Zn) & R0 & Rn & Rp).
  destruct R as (_ & _ & _ & _ & Rg). exists r, g. split; [exact E|]. split; [exact Lg|]. split; [exact I|].
  assert (Seg : forall i q v, nth_error z i = Some (Some q) -> (0 < q)%Q -> nth_error r i = Some (Some v) ->
    exists k xa xb, nth_error g k = Some xa /\ nth_error g (k + 1) = Some xb /\ (xa < xb)%Q /\ (xa <= q <= xb)%Q /\ (k + 2 = List.length g \/ (q < xb)%Q) /\ on_line xa (f xa) xb (f xb) q v).
  { intros i q v Ei Hq Ev. destruct (Rp i q Ei Hq) as (v' & Ev' & Pw). rewrite Ev in Ev'. injection Ev' as <-. pose proof (Rg q (nth_error_In _ _ Ei) Hq) as Hr.
    exact (piecewise_in f g q v x0 xn I N0 ltac:(rewrite Lg; exact Nn) ltac:(split; lra) Pw). }
  split.
  - intros i q v Ei Hq Ev. destruct (Seg i q v Ei Hq Ev) as (k & xa & xb & A & B & D & F & _ & H). exists k, xa, xb. split; [exact A|]. split; [exact B|].
    destruct (on_line_between xa (f xa) xb (f xb) q v D (proj1 F) (proj2 F) (Mf xa xb (Qlt_le_weak _ _ D)) H) as [V1 V2]. pose proof (Mf xa q (proj1 F)). pose proof (Mf q xb (proj2 F)). repeat split; lra.
  - intros i j q q' v v' Ei Ej Hq Hqq Ev Ev'. destruct (Seg i q v Ei Hq Ev) as (k & xa & xb & A & B & D & F & S & H). destruct (Seg j q' v' Ej ltac:(lra) Ev') as (k' & xa' & xb' & A' & B' & D' & F' & S' & H').
    destruct (Nat.lt_trichotomy k k') as [C|[C|C]].
    + assert (M : (xb <= xa')%Q) by (apply (InterpProofs.nondecreasing_mono g (k + 1) k' xb xa' (InterpProofs.increasing_weak _ I)); [lia|exact B|exact A']).
      destruct (on_line_between xa (f xa) xb (f xb) q v D (proj1 F) (proj2 F) (Mf xa xb (Qlt_le_weak _ _ D)) H) as [V1 V2]. destruct (on_line_between xa' (f xa') xb' (f xb') q' v' D' (proj1 F') (proj2 F') (Mf xa' xb' (Qlt_le_weak _ _ D')) H') as [V1' V2']. pose proof (Mf _ _ M). lra.
    + subst k'. rewrite A in A'. injection A' as <-. rewrite B in B'. injection B' as <-. exact (on_line_mono xa (f xa) xb (f xb) q q' v v' D Hqq (Mf xa xb (Qlt_le_weak _ _ D)) H H').
    + exfalso. assert (M : (xb' <= xa)%Q) by (apply (InterpProofs.nondecreasing_mono g (k' + 1) k xb' xa (InterpProofs.increasing_weak _ I)); [lia|exact B'|exact A]).
      destruct S' as [S'|S']; [|lra]. assert (k + 1 < List.length g) by (apply nth_error_Some; congruence). lia.
Qed.
Print Assumptions C109_increasing.

(* Finding: many redshifts, of which the positive ones are all the same: they all get NaN *)
Theorem C109_same_redshift_refuted : forall f at0 at_nan rgen_log npt z a, 2 <= npt -> 2 * npt <= List.length z -> log_grid rgen_log ->
  In (Some a) z -> (0 < a)%Q -> (forall q, In (Some q) z -> (0 < q)%Q -> (q == a)%Q) ->
  exists r, vectorized f at0 at_nan rgen_log npt z = Ok r /\ List.length r = List.length z /\
    (forall i q, nth_error z i = Some (Some q) -> (0 < q)%Q -> nth_error r i = Some None).
Proof.
  intros f at0 nan rg npt z a Hn Hl G Ia Pa H. apply (vectorized_same f at0 nan rg npt z a a Hn Hl G); [|reflexivity]. repeat split; auto; specialize (H _ ltac:(eassumption) ltac:(eassumption)); lra.
Qed.
Print Assumptions C109_same_redshift_refuted.
(* Finding: many redshifts, none of them positive: the program stops (a few give the value at 0) *)
Theorem C109_no_positive_abort : forall f at0 at_nan rgen_log npt z, 2 * npt <= List.length z -> (forall q, In (Some q) z -> (q <= 0)%Q) ->
  vectorized f at0 at_nan rgen_log npt z = CheckFail.
Proof. exact vectorized_none. Qed.
Print Assumptions C109_no_positive_abort.

(* the names of cosmo_list() are known; all cosmologies are flat: the densities of matter, dark energy and
   curvature add up to 1 *)
Theorem C109_cosmo : forall name, (snd (get_cosmo name) = false <-> In name cosmo_list) /\
  (wL (fst (get_cosmo name)) + wm (fst (get_cosmo name)) + wk (fst (get_cosmo name)) == 1)%Q /\ (wk (fst (get_cosmo name)) == 0)%Q /\
  (snd (get_cosmo name) = true -> fst (get_cosmo name) = cosmo_wmap).
Proof.
  intros name. unfold get_cosmo. destruct (String.eqb_spec name "wmap") as [->|N1]; [|destruct (String.eqb_spec name "plank") as [->|N2]; [|destruct (String.eqb_spec name "std") as [->|N3]]]; cbn [fst snd].
  1-3: split; [split; [intros _; cbn; auto|reflexivity]|]; split; [reflexivity|]; split; [reflexivity|discriminate].
  split; [split; [discriminate|intros H; exfalso; cbn in H; destruct H as [H|[H|[H|[]]]]; congruence]|]. split; [reflexivity|]. split; reflexivity.
Qed.
Print Assumptions C109_cosmo.
(* Finding: the Planck cosmology is only known as "plank" *)
Theorem C109_cosmo_planck_refuted : get_cosmo "planck" = (cosmo_wmap, true) /\ fst (get_cosmo "plank") <> cosmo_wmap.
Proof. split; [reflexivity|discriminate]. Qed.
Print Assumptions C109_cosmo_planck_refuted.

(* three nodes; the square of the redshift; a linear grid *)
Definition sq (q : Q) : Q := (q * q)%Q.
Definition lin (a b : Q) (n : nat) : outcome (list Q) := Ok (map (fun k => a + inject_Z (Z.of_nat k) * (b - a) / inject_Z (Z.of_nat (n - 1)))%Q (seq 0 n)).
Example ex_small : vectorized sq (Some 0%Q) None lin 3 [Some 1%Q; Some (-1)%Q; None; Some 3%Q] = Ok [Some (sq 1); Some 0%Q; None; Some (sq 3)].
Proof. reflexivity. Qed.
Example ex_large : match vectorized sq (Some 0%Q) None lin 3 [Some 1%Q; Some (-1)%Q; None; Some 3%Q; Some (3 # 2); Some (5 # 2)] with
  | Ok [Some a; Some b; Some c; Some d; Some e; Some f] => (a == 1 /\ b == 0 /\ c == 0 /\ d == 9 /\ e == 5 # 2 /\ f == 13 # 2)%Q | _ => False end.
Proof. vm_compute. repeat split. Qed.
Example ex_same : vectorized sq (Some 0%Q) None lin 2 [Some 1%Q; Some 1%Q; Some 1%Q; Some 0%Q] = Ok [None; None; None; Some 0%Q].
Proof. vm_compute. reflexivity. Qed.
Lemma lin_grid : log_grid lin.
Proof.
  intros a b n Pa Lab Hn. unfold lin. set (m := inject_Z (Z.of_nat (n - 1))). assert (Pm : (0 < m)%Q) by (unfold m; change 0%Q with (inject_Z 0); rewrite <- Zlt_Qlt; lia).
  eexists. exists (a + inject_Z 0 * (b - a) / m)%Q, (a + m * (b - a) / m)%Q. split; [reflexivity|]. split; [rewrite map_length, seq_length; reflexivity|]. rewrite !nth_error_map.
  destruct n as [|n']; [lia|]. cbn [seq nth_error option_map]. split; [reflexivity|]. split; [field; lra|].
  assert (Ns : forall k, k < S n' -> nth_error (seq 0 (S n')) k = Some k) by (intros k Hk; rewrite (nth_error_nth' _ 0) by (rewrite seq_length; exact Hk); rewrite seq_nth by exact Hk; reflexivity).
  split; [change (0 :: seq 1 n') with (seq 0 (S n')); rewrite (Ns (S n' - 1)) by lia; reflexivity|]. split; [field; lra|]. split.
  - intros H i x y Hx Hy. change (0 :: seq 1 n') with (seq 0 (S n')) in *. change (?h :: map ?g (seq 1 n')) with (map g (seq 0 (S n'))) in *. rewrite nth_error_map in Hx, Hy.
    assert (B : i + 1 < S n') by (destruct (Nat.lt_ge_cases (i + 1) (S n')) as [|C]; [assumption|]; replace (nth_error (seq 0 (S n')) (i + 1)) with (@None nat) in Hy by (symmetry; apply nth_error_None; rewrite seq_length; exact C); discriminate).
    rewrite Ns in Hx, Hy by lia. injection Hx as <-. injection Hy as <-. rewrite Nat2Z.inj_add, inject_Z_plus. change (inject_Z (Z.of_nat 1)) with 1%Q.
    assert (P : (0 < (b - a) / m)%Q) by (apply Qlt_shift_div_l; lra). set (u := inject_Z (Z.of_nat i)). assert (Eu : ((u + 1) * (b - a) / m == u * (b - a) / m + (b - a) / m)%Q) by (field; lra). rewrite Eu. lra.
  - intros H x I. change (?h :: map ?g (seq 1 n')) with (map g (seq 0 (S n'))) in *. apply in_map_iff in I. destruct I as (k & <- & _). rewrite <- H. field. lra.
Qed.
