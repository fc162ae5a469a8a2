(* Proofs about areas: pixels that tile a rectangle, and what lies outside of the corners. *)
From Coq Require Import QArith Qabs Qround Lqa Setoid Morphisms Qminmax Lia.
From Verif Require Import Base DrizModel DrizSpec DrizProofs DrizProofs2 DrizProofs3 DrizProofs4 DrizProofs5 DrizProofs6 DrizProofs7 DrizProofs8.
Local Open Scope Q_scope.

(* --- sums --- *)
Lemma qsum_app l l' : qsum (l ++ l') == qsum l + qsum l'.
Proof. unfold qsum. induction l as [|x l IH]; cbn [app fold_right]; [ring|]. rewrite IH. ring. Qed.
Lemma qsum_ext {A} (f f' : A -> Q) l : (forall x, In x l -> f x == f' x) -> qsum (map f l) == qsum (map f' l).
Proof.
  unfold qsum. induction l as [|x l IH]; intros H; cbn [map fold_right]; [reflexivity|].
  rewrite IH by (intros; apply H; right; assumption). rewrite (H x) by (left; reflexivity). reflexivity.
Qed.
Lemma qsum_le {A} (f f' : A -> Q) l : (forall x, In x l -> f x <= f' x) -> qsum (map f l) <= qsum (map f' l).
Proof.
  unfold qsum. induction l as [|x l IH]; intros H; cbn [map fold_right]; [lra|].
  assert (H1 := IH (fun z Hz => H z (or_intror Hz))). assert (H2 := H x (or_introl eq_refl)). lra.
Qed.
Lemma qsum_prod {A B} (f : A * B -> Q) ys xs :
  qsum (map f (list_prod ys xs)) == qsum (map (fun y => qsum (map (fun x => f (y, x)) xs)) ys).
Proof.
  induction ys as [|y ys IH]; [reflexivity|]. cbn [list_prod map]. rewrite map_app, qsum_app, map_map, IH. reflexivity.
Qed.

(* --- tiling --- *)
Definition PA (ls : list line) (ix iy : Z) : Q := polyon_area (exact ls (square ix iy)).
Lemma integral_point (f : Q -> Q) a b : a == b -> integral f a b 0.
Proof.
  intros E. assert (H : integral f a b ((b - a) * (0 * ((a + b) / 2) + 0))).
  { apply st_strip; [lra|]. intros y Y0 Y1. lra. }
  eapply st_eq; [reflexivity|reflexivity| |exact H]. ring.
Qed.
Lemma clamps_eq t ls y x x' : x == x' -> clamps t ls y x == clamps t ls y x'.
Proof. intros E. apply Qle_antisym; apply clamps_mono; lra. Qed.
Lemma row_integral ls x0 iy n : proper ls ->
  integral (widths ls (inject_Z x0 - (1#2)) (inject_Z (x0 + Z.of_nat n) - (1#2))) (inject_Z iy - (1#2)) (inject_Z iy + (1#2))
    (qsum (map (fun k => PA ls (x0 + Z.of_nat k) iy) (seq 0 n))).
Proof.
  intros P. induction n as [|n IH].
  - eapply integral_ext; [apply integral_zero; lra|]. intros y _ _. unfold widths. rewrite Z.add_0_r. ring.
  - rewrite seq_S, map_app. cbn [map Nat.add].
    eapply st_eq; [reflexivity|reflexivity|symmetry; apply qsum_app|].
    eapply integral_ext.
    + apply integral_plus; [exact IH|].
      assert (I := exact_integral ls (inject_Z (x0 + Z.of_nat n) - (1#2)) (inject_Z iy - (1#2)) (inject_Z (x0 + Z.of_nat n) + (1#2)) (inject_Z iy + (1#2))
        ltac:(lra) ltac:(lra) P).
      eapply st_eq; [reflexivity|reflexivity| |exact I]. unfold PA, qsum. cbn [fold_right]. rewrite square_rect. ring.
    + intros y _ _. cbv beta. unfold widths.
      rewrite (clamps_eq 0 ls y (inject_Z (x0 + Z.of_nat (S n)) - (1#2)) (inject_Z (x0 + Z.of_nat n) + (1#2))); [ring|].
      rewrite Nat2Z.inj_succ. unfold Z.succ. rewrite Z.add_assoc, (inject_Z_plus _ 1). change (inject_Z 1) with 1. ring.
Qed.
Lemma grid_integral ls x0 y0 n m : proper ls ->
  integral (widths ls (inject_Z x0 - (1#2)) (inject_Z (x0 + Z.of_nat n) - (1#2)))
    (inject_Z y0 - (1#2)) (inject_Z (y0 + Z.of_nat m) - (1#2))
    (qsum (map (fun j => qsum (map (fun k => PA ls (x0 + Z.of_nat k) (y0 + Z.of_nat j)) (seq 0 n))) (seq 0 m))).
Proof.
  intros P. induction m as [|m IH].
  - apply integral_point. rewrite Z.add_0_r. reflexivity.
  - rewrite seq_S, map_app. cbn [map Nat.add].
    eapply st_eq; [reflexivity|reflexivity|symmetry; apply qsum_app|].
    eapply st_join; [exact IH|].
    eapply st_eq; [| | |apply (row_integral ls x0 (y0 + Z.of_nat m) n P)].
    + reflexivity.
    + rewrite Nat2Z.inj_succ. unfold Z.succ. rewrite Z.add_assoc, (inject_Z_plus _ 1). change (inject_Z 1) with 1. ring.
    + unfold qsum at 2. cbn [fold_right]. ring.
Qed.
Lemma zrange_sum (f : Z -> Q) a b :
  qsum (map f (zrange a b)) = qsum (map (fun k => f (a + Z.of_nat k)%Z) (seq 0 (Z.to_nat (b - a + 1)))).
Proof. unfold zrange. rewrite map_map. reflexivity. Qed.

Section Grid.
Variable o : Z.
Hypothesis o_unit : o = 1%Z \/ o = (-1)%Z.
Variables x0 y0 x1 y1 : Z.
Hypothesis Lx : (x0 <= x1)%Z.
Hypothesis Ly : (y0 <= y1)%Z.
Let bx : region := box (inject_Z x0 - (1#2)) (inject_Z y0 - (1#2)) (inject_Z x1 + (1#2)) (inject_Z y1 + (1#2)).
Lemma upper a b : (a <= b)%Z -> inject_Z (a + Z.of_nat (Z.to_nat (b - a + 1))) - (1#2) == inject_Z b + (1#2).
Proof.
  intros L. replace (a + Z.of_nat (Z.to_nat (b - a + 1)))%Z with (b + 1)%Z by lia. rewrite inject_Z_plus.
  change (inject_Z 1) with 1. ring.
Qed.
Lemma le_half a b : (a <= b)%Z -> inject_Z a - (1#2) < inject_Z b + (1#2).
Proof. intros L. assert (H : inject_Z a <= inject_Z b) by (rewrite <- Zle_Qle; exact L). lra. Qed.
Lemma tile ls : proper ls -> area (both bx (below 0 ls)) (inject_Z y0 - (1#2)) (inject_Z y1 + (1#2))
  (qsum (map (fun yx => PA ls (snd yx) (fst yx)) (list_prod (zrange y0 y1) (zrange x0 x1)))).
Proof.
  intros P.
  assert (I := grid_integral ls x0 y0 (Z.to_nat (x1 - x0 + 1)) (Z.to_nat (y1 - y0 + 1)) P).
  eapply area_eq; [reflexivity|reflexivity| |apply exact_area; [apply le_half, Lx|apply Qlt_le_weak, le_half, Ly|exact P]].
  eapply integral_unique; [apply exact_integral; [apply Qlt_le_weak, le_half, Lx|apply Qlt_le_weak, le_half, Ly|exact P]|].
  eapply integral_ext.
  - eapply st_eq; [reflexivity|apply upper, Ly| |exact I].
    rewrite qsum_prod. cbn [fst snd]. rewrite zrange_sum. apply qsum_ext. intros j _. rewrite zrange_sum. reflexivity.
  - intros y _ _. unfold widths. apply Qplus_comp; [|reflexivity]. apply clamps_eq. apply upper, Lx.
Qed.
Lemma PA_area ls ix iy : proper ls ->
  area (both (in_pixel ix iy) (below 0 ls)) (inject_Z iy - (1#2)) (inject_Z iy + (1#2)) (PA ls ix iy).
Proof.
  intros P. unfold PA. rewrite square_rect.
  eapply area_ext; [|apply (exact_area ls (inject_Z ix - (1#2)) (inject_Z iy - (1#2)) (inject_Z ix + (1#2)) (inject_Z iy + (1#2))); [lra|lra|exact P]].
  intros x y. unfold both, in_pixel, box. clear o_unit. tauto.
Qed.
Lemma below_shift t ls x y : below 0 (map (shift t) ls) x y <-> below (- t) ls x y.
Proof.
  unfold below. split.
  - intros H l I. specialize (H (shift t l) (in_map _ _ _ I)). rewrite shift_g in H. lra.
  - intros H l I. apply in_map_iff in I. destruct I as (l' & <- & I). rewrite shift_g. specialize (H l' I). lra.
Qed.
(* the overlaps of a polygon with the pixels of a grid add up *)
Lemma grid_area t proj (A : Z * Z -> Q) : 0 <= t -> proj <> [] ->
  (forall ix iy, In (iy, ix) (list_prod (zrange y0 y1) (zrange x0 x1)) ->
     area (both (in_pixel ix iy) (deeper t (inject_Z o) proj)) (inject_Z iy - (1#2)) (inject_Z iy + (1#2)) (A (iy, ix))) ->
  area (both bx (deeper t (inject_Z o) proj)) (inject_Z y0 - (1#2)) (inject_Z y1 + (1#2))
    (qsum (map A (list_prod (zrange y0 y1) (zrange x0 x1)))).
Proof.
  intros Ht N HA. destruct (plines_dec o o_unit proj) as [P|P].
  - assert (P' := shift_proper t _ P).
    eapply area_ext; [|eapply area_eq; [reflexivity|reflexivity| |apply (tile _ P')]].
    + intros x y. unfold both. rewrite below_shift, plines_below by exact N. tauto.
    + apply qsum_ext. intros [iy ix] I. cbn [fst snd]. specialize (HA ix iy I).
      eapply area_unique; [|exact HA]. eapply area_ext; [|apply (PA_area _ ix iy P')].
      intros x y. unfold both. rewrite below_shift, plines_below by exact N. tauto.
  - assert (Em : forall x y, ~ deeper t (inject_Z o) proj x y).
    { intros x y D. apply (plines_below o proj t x y N) in D.
      apply Exists_exists in P. destruct P as (k & I & Z). specialize (D _ (in_map _ _ _ I)).
      rewrite (Z (x, y)) in D. lra. }
    eapply area_eq; [reflexivity|reflexivity| |apply area_empty; [apply Qlt_le_weak, le_half, Ly|intros x y [_ D]; apply (Em x y D)]].
    assert (Z : qsum (map A (list_prod (zrange y0 y1) (zrange x0 x1))) == qsum (map (fun _ => 0) (list_prod (zrange y0 y1) (zrange x0 x1)))).
    { apply qsum_ext. intros [iy ix] I. eapply area_unique; [apply (HA ix iy I)|].
      apply area_empty; [lra|]. intros x y [_ D]. apply (Em x y D). }
    rewrite Z. clear HA Z. unfold qsum. induction (list_prod (zrange y0 y1) (zrange x0 x1)) as [|p l IH]; cbn [map fold_right]; [reflexivity|]. lra.
Qed.
End Grid.

(* --- nothing is inside of a quadrilateral and outside of the range of its corners --- *)
Lemma push1 s k : 0 < s -> exists e, 0 < e /\ forall d, 0 <= d -> d <= e -> 0 < s + k * d.
Proof.
  intros S. assert (K : 0 < 1 + Qabs k) by (pose proof (Qabs_nonneg k); lra).
  exists (s / (2 * (1 + Qabs k))). split.
  - apply Qlt_shift_div_l; lra.
  - intros d D0 D1.
    assert (B : d * (2 * (1 + Qabs k)) <= s).
    { assert (E : s == s / (2 * (1 + Qabs k)) * (2 * (1 + Qabs k))) by (field; lra).
      eapply Qle_trans; [apply Qmult_le_compat_r; [exact D1|lra]|]. lra. }
    assert (C : - (k * d) <= Qabs k * d).
    { pose proof (Qle_Qabs (- k)) as H. rewrite Qabs_opp in H. assert (H2 := prod_nn (Qabs k - - k) d ltac:(lra) D0). lra. }
    assert (0 <= Qabs k * d) by (apply prod_nn; [apply Qabs_nonneg|exact D0]). lra.
Qed.
Lemma push4 a b c d x y dx dy : left4 a b c d (x, y) -> exists e, 0 < e /\ left4 a b c d (x + dx * e, y + dy * e).
Proof.
  intros (S1 & S2 & S3 & S4).
  assert (G : forall p q : point, 0 < side p q (x, y) -> exists e, 0 < e /\ forall d, 0 <= d -> d <= e -> 0 < side p q (x + dx * d, y + dy * d)).
  { intros p q S. destruct (push1 _ ((fst q - fst p) * dy - (snd q - snd p) * dx) S) as (e & E & H).
    exists e. split; [exact E|]. intros d0 D0 D1. specialize (H d0 D0 D1).
    assert (Eq : side p q (x + dx * d0, y + dy * d0) == side p q (x, y) + ((fst q - fst p) * dy - (snd q - snd p) * dx) * d0)
      by (unfold side; cbn [fst snd]; ring). lra. }
  destruct (G _ _ S1) as (e1 & E1 & H1), (G _ _ S2) as (e2 & E2 & H2), (G _ _ S3) as (e3 & E3 & H3), (G _ _ S4) as (e4 & E4 & H4).
  assert (M : exists e, 0 < e /\ e <= e1 /\ e <= e2 /\ e <= e3 /\ e <= e4).
  { assert (M2 : forall p q, 0 < p -> 0 < q -> exists e, 0 < e /\ e <= p /\ e <= q).
    { intros p q Pp Pq. destruct (Qlt_le_dec p q); [exists p|exists q]; repeat split; lra. }
    destruct (M2 e1 e2 E1 E2) as (f & F & F1 & F2), (M2 e3 e4 E3 E4) as (h & Hh & Hh1 & Hh2), (M2 f h F Hh) as (e & Ee & K1 & K2).
    exists e. repeat split; lra. }
  destruct M as (e & E & M1 & M2 & M3 & M4). exists e. split; [exact E|].
  repeat split; [apply H1|apply H2|apply H3|apply H4]; lra.
Qed.
Lemma left4_bounds a b c d p lo hi : left4 a b c d p ->
  (Forall (fun v => lo <= fst v) [a; b; c; d] -> lo < fst p) /\ (Forall (fun v => fst v <= hi) [a; b; c; d] -> fst p < hi)
  /\ (Forall (fun v => lo <= snd v) [a; b; c; d] -> lo < snd p) /\ (Forall (fun v => snd v <= hi) [a; b; c; d] -> snd p < hi).
Proof.
  destruct p as [x y]. intros L. cbn [fst snd].
  repeat split; intros F; apply Forall_cons_iff in F; destruct F as [Fa F]; apply Forall_cons_iff in F; destruct F as [Fb F];
    apply Forall_cons_iff in F; destruct F as [Fc F]; apply Forall_cons_iff in F; destruct F as [Fd _]; apply Qnot_le_lt; intros K.
  - destruct (push4 a b c d x y (-(1)) 0 L) as (e & E & L'). apply (left4_right _ _ _ _ _ L'); cbn [fst snd]; lra.
  - destruct (push4 a b c d x y 1 0 L) as (e & E & L'). apply (left4_left _ _ _ _ _ L'); cbn [fst snd]; lra.
  - destruct (push4 a b c d x y 0 (-(1)) L) as (e & E & L'). apply (left4_above _ _ _ _ _ L'); cbn [fst snd]; lra.
  - destruct (push4 a b c d x y 0 1 L) as (e & E & L'). apply (left4_below _ _ _ _ _ L'); cbn [fst snd]; lra.
Qed.
Lemma inside_left4 a b c d x y : inside 1 [a; b; c; d] x y <-> left4 a b c d (x, y).
Proof.
  unfold inside, deeper, left4. cbn [edges path In]. split.
  - intros H. assert (H1 := H a b). assert (H2 := H b c). assert (H3 := H c d). assert (H4 := H d a).
    rewrite Qmult_1_l in *. repeat split; [apply H1|apply H2|apply H3|apply H4]; auto 6.
  - intros (S1 & S2 & S3 & S4) p q I. rewrite Qmult_1_l.
    destruct I as [E|[E|[E|[E|[]]]]]; injection E as <- <-; assumption.
Qed.
Lemma inside_rev a b c d t x y : deeper t (-(1)) [a; b; c; d] x y <-> deeper t 1 [d; c; b; a] x y.
Proof.
  assert (E : forall p q r, side p q r == - side q p r) by (intros; unfold side; ring).
  unfold deeper. cbn [edges path In]. split; intros H p q I.
  - assert (K : t < -(1) * side q p (x, y)); [|rewrite (E p q); lra]. apply H.
    destruct I as [F|[F|[F|[F|[]]]]]; injection F as <- <-; auto 6.
  - assert (K : t < 1 * side q p (x, y)); [|rewrite (E p q); lra]. apply H.
    destruct I as [F|[F|[F|[F|[]]]]]; injection F as <- <-; auto 6.
Qed.
Lemma deeper_less t t' o ps x y : t' <= t -> deeper t o ps x y -> deeper t' o ps x y.
Proof. intros L H p q I. specialize (H p q I). lra. Qed.
Lemma inside_bounds o a b c d t x y lo hi : (o = 1 \/ o = -1)%Z -> 0 <= t -> deeper t (inject_Z o) [a; b; c; d] x y ->
  (Forall (fun v => lo <= fst v) [a; b; c; d] -> lo < x) /\ (Forall (fun v => fst v <= hi) [a; b; c; d] -> x < hi)
  /\ (Forall (fun v => lo <= snd v) [a; b; c; d] -> lo < y) /\ (Forall (fun v => snd v <= hi) [a; b; c; d] -> y < hi).
Proof.
  intros Ho Ht D. apply (deeper_less t 0) in D; [|exact Ht]. destruct Ho as [->| ->].
  - apply inside_left4 in D. apply (left4_bounds a b c d (x, y) lo hi D).
  - apply inside_rev in D. apply inside_left4 in D. destruct (left4_bounds d c b a (x, y) lo hi D) as (B1 & B2 & B3 & B4).
    assert (R : forall P : point -> Prop, Forall P [a; b; c; d] -> Forall P [d; c; b; a]).
    { intros P F. apply Forall_rev in F. exact F. }
    split; [intros F; apply B1, R, F|]. split; [intros F; apply B2, R, F|]. split; intros F; [apply B3, R, F|apply B4, R, F].
Qed.

(* --- the area of a strictly convex quadrilateral --- *)
Lemma strict_proper a b c d : strict4 a b c d -> convex4 a b c d /\ proper (plines 1 [a; b; c; d]).
Proof.
  intros (S1 & S2 & S3 & S4). split; [repeat split; lra|].
  assert (E : forall p q, (- inject_Z 1 * (snd q - snd p) == 0 /\ inject_Z 1 * (fst q - fst p) == 0) -> forall r, side p q r == 0).
  { intros p q [A B] r. change (inject_Z 1) with 1 in *. unfold side.
    assert (A' : snd q - snd p == 0) by lra. assert (B' : fst q - fst p == 0) by lra. rewrite A', B'. ring. }
  pose proof (side_rot a b c). pose proof (side_rot a b d). pose proof (side_rot a c d). pose proof (side_rot b c d).
  assert (R : forall p q r, side p q r == - side q p r) by (intros; unfold side; ring).
  unfold proper. repeat constructor; intros F.
  - apply E with (r := b) in F. pose proof (side_rot d a b). pose proof (R a d b). cbn [last] in F. lra.
  - apply E with (r := c) in F. pose proof (R a b c). lra.
  - apply E with (r := a) in F. pose proof (R b c a). lra.
  - apply E with (r := b) in F. pose proof (R d c b). pose proof (side_rot c d b). pose proof (side_rot d b c). lra.
Qed.
Lemma strict_area1 a b c d y0 y1 : strict4 a b c d -> y0 <= y1 -> Forall (high y0 y1) [a; b; c; d] ->
  area (inside 1 [a; b; c; d]) y0 y1 (polyon_area [a; b; c; d]).
Proof.
  intros S Ly H. destruct (strict_proper _ _ _ _ S) as [C P].
  set (lo := Qmin (Qmin (fst a) (fst b)) (Qmin (fst c) (fst d))).
  set (hi := Qmax (Qmax (fst a) (fst b)) (Qmax (fst c) (fst d))).
  assert (F : Forall (fun p => lo <= fst p /\ fst p <= hi) [a; b; c; d]).
  { unfold lo, hi. repeat constructor;
    try (apply Qle_trans with (Qmin (fst a) (fst b)); [apply Q.le_min_l|solve [apply Q.le_min_l|apply Q.le_min_r]]);
    try (apply Qle_trans with (Qmin (fst c) (fst d)); [apply Q.le_min_r|solve [apply Q.le_min_l|apply Q.le_min_r]]);
    try (apply Qle_trans with (Qmax (fst a) (fst b)); [solve [apply Q.le_max_l|apply Q.le_max_r]|apply Q.le_max_l]);
    try (apply Qle_trans with (Qmax (fst c) (fst d)); [solve [apply Q.le_max_l|apply Q.le_max_r]|apply Q.le_max_r]). }
  assert (F' : Forall (fun p => lo - 1 <= fst p /\ fst p <= hi + 1) [a; b; c; d]).
  { eapply Forall_impl; [|exact F]. cbv beta. intros p Hp. lra. }
  assert (Lx : lo - 1 < hi + 1). { inversion F' as [|? ? K _]; subst. inversion F as [|? ? K' _]; subst. lra. }
  eapply area_ext; [|apply (quad_area_box a b c d (lo - 1) y0 (hi + 1) y1 C P Lx Ly F' H)].
  intros x y. unfold both. split; [intros [_ I]; exact I|]. intros I. split; [|exact I].
  assert (D := I). apply (inside_bounds 1 a b c d 0 x y) with (lo := lo) (hi := hi) in D; [|auto|lra].
  destruct D as (B1 & B2 & _). assert (D := I).
  apply (inside_bounds 1 a b c d 0 x y) with (lo := y0) (hi := y1) in D; [|auto|lra]. destruct D as (_ & _ & B3 & B4).
  unfold box. assert (K1 : lo < x). { apply B1. eapply Forall_impl; [|exact F]. cbv beta. intros p Hp. apply Hp. }
  assert (K2 : x < hi). { apply B2. eapply Forall_impl; [|exact F]. cbv beta. intros p Hp. apply Hp. }
  assert (K3 : y0 < y). { apply B3. eapply Forall_impl; [|exact H]. unfold high. intros p Hp. apply Hp. }
  assert (K4 : y < y1). { apply B4. eapply Forall_impl; [|exact H]. unfold high. intros p Hp. apply Hp. }
  repeat split; lra.
Qed.
Lemma polyon_rev a b c d : convex4 a b c d -> polyon_area [d; c; b; a] == polyon_area [a; b; c; d].
Proof.
  intros (C1 & C2 & C3 & C4). unfold polyon_area. cbn [fan].
  assert (N : forall p q r : point, fst p * (snd q - snd r) + fst q * (snd r - snd p) + fst r * (snd p - snd q) == side p q r)
    by (intros; unfold side; ring).
  rewrite !N.
  assert (E1 : side d c b == - side b c d) by (unfold side; ring). assert (E2 : side d b a == - side a b d) by (unfold side; ring).
  rewrite E1, E2, !Qabs_opp, !Qabs_pos by assumption.
  assert (E : side b c d + side a b d == side a b c + side a c d) by (unfold side; ring). lra.
Qed.
Lemma strict_area o a b c d y0 y1 : (o = 1 \/ o = -1)%Z -> strictly_convex (inject_Z o) [a; b; c; d] ->
  y0 <= y1 -> Forall (high y0 y1) [a; b; c; d] ->
  area (inside (inject_Z o) [a; b; c; d]) y0 y1 (polyon_area [a; b; c; d]).
Proof.
  intros Ho S Ly H. unfold strictly_convex in S. destruct S as (S1 & S2 & S3 & S4). destruct Ho as [->| ->].
  - change (inject_Z 1) with 1 in *. apply strict_area1; [repeat split; lra|exact Ly|exact H].
  - change (inject_Z (-1)) with (-(1)) in *.
    assert (E1 : side d c b == - side b c d) by (unfold side; ring). assert (E2 : side d b a == - side a b d) by (unfold side; ring).
    assert (E3 : side d c a == - side a c d) by (unfold side; ring). assert (E4 : side c b a == - side a b c) by (unfold side; ring).
    assert (S : strict4 d c b a) by (unfold strict4; repeat split; lra).
    eapply area_ext; [intros x y; symmetry; apply (inside_rev a b c d 0 x y)|].
    destruct (strict_proper _ _ _ _ S) as [C P].
    eapply area_eq; [reflexivity|reflexivity| |apply (strict_area1 d c b a y0 y1 S Ly)].
    + symmetry. apply (polyon_rev d c b a C).
    + apply Forall_rev in H. exact H.
Qed.
