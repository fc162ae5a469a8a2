(* Proofs on the angles on the sky. *)
From Coq Require Import Reals Lra Lia Psatz.
From Verif Require Import Base SphModel SphSpec.
Local Open Scope R_scope.

Lemma s2c2 x : sin x * sin x + cos x * cos x = 1.
Proof. pose proof (sin2_cos2 x) as H. unfold Rsqr in H. exact H. Qed.
Lemma half_sin x : sin (/ 2 * x) * sin (/ 2 * x) = (1 - cos x) / 2.
Proof.
  replace (cos x) with (cos (2 * (/ 2 * x))) by (f_equal; field). rewrite cos_2a_sin. field.
Qed.
Lemma direction_unit ra dec : unit3 (direction ra dec).
Proof.
  unfold unit3, dot, direction. cbn [vx vy vz]. pose proof (s2c2 ra) as A. pose proof (s2c2 dec) as B.
  replace (_ + _) with (cos dec * cos dec * (sin ra * sin ra + cos ra * cos ra) + sin dec * sin dec) by ring. rewrite A. lra.
Qed.
Definition hav (ra1 dec1 ra2 dec2 : R) : R :=
  sin (/ 2 * (dec2 - dec1)) * sin (/ 2 * (dec2 - dec1)) + sin (/ 2 * (ra2 - ra1)) * sin (/ 2 * (ra2 - ra1)) * cos dec2 * cos dec1.
Lemma hav_dot ra1 dec1 ra2 dec2 : hav ra1 dec1 ra2 dec2 = (1 - dot (direction ra1 dec1) (direction ra2 dec2)) / 2.
Proof.
  unfold hav. rewrite !half_sin, !cos_minus. unfold dot, direction. cbn [vx vy vz]. field.
Qed.
Lemma cauchy u v : unit3 u -> unit3 v -> -1 <= dot u v <= 1.
Proof.
  unfold unit3, dot. intros U V.
  assert (P : 0 <= (vx u + vx v) * (vx u + vx v) + (vy u + vy v) * (vy u + vy v) + (vz u + vz v) * (vz u + vz v)).
  { pose proof (Rle_0_sqr (vx u + vx v)); pose proof (Rle_0_sqr (vy u + vy v)); pose proof (Rle_0_sqr (vz u + vz v)). unfold Rsqr in *. lra. }
  assert (M : 0 <= (vx u - vx v) * (vx u - vx v) + (vy u - vy v) * (vy u - vy v) + (vz u - vz v) * (vz u - vz v)).
  { pose proof (Rle_0_sqr (vx u - vx v)); pose proof (Rle_0_sqr (vy u - vy v)); pose proof (Rle_0_sqr (vz u - vz v)). unfold Rsqr in *. lra. }
  lra.
Qed.
Lemma hav_range ra1 dec1 ra2 dec2 : 0 <= hav ra1 dec1 ra2 dec2 <= 1.
Proof. rewrite hav_dot. pose proof (cauchy _ _ (direction_unit ra1 dec1) (direction_unit ra2 dec2)). lra. Qed.
Lemma sqrt_range x : 0 <= x <= 1 -> 0 <= sqrt x <= 1.
Proof. intros H. split; [apply sqrt_pos|]. rewrite <- sqrt_1. apply sqrt_le_1; lra. Qed.
Lemma asin_pos x : 0 <= x <= 1 -> 0 <= asin x <= PI / 2.
Proof.
  intros H. pose proof (asin_bound x) as B. split; [|lra]. destruct (Req_EM_T x 0) as [-> | N]; [rewrite asin_0; lra|].
  rewrite <- asin_0. apply Rlt_le.
  destruct (Rlt_le_dec (asin 0) (asin x)) as [L|L]; [exact L|]. exfalso. rewrite asin_0 in L.
  assert (S : sin (asin x) <= sin 0) by (apply sin_incr_1; lra). rewrite sin_asin in S by lra. rewrite sin_0 in S. lra.
Qed.
Lemma angdistr_hav ra1 dec1 ra2 dec2 : angdistr ra1 dec1 ra2 dec2 = 2 * asin (sqrt (hav ra1 dec1 ra2 dec2)).
Proof. reflexivity. Qed.
Lemma angdistr_angle ra1 dec1 ra2 dec2 : angle_of (direction ra1 dec1) (direction ra2 dec2) (angdistr ra1 dec1 ra2 dec2).
Proof.
  rewrite angdistr_hav. pose proof (hav_range ra1 dec1 ra2 dec2) as H. pose proof (sqrt_range _ H) as S. pose proof (asin_pos _ S) as A.
  split; [lra|]. rewrite cos_2a_sin, sin_asin by lra. pose proof (sqrt_sqrt (hav ra1 dec1 ra2 dec2)) as Q. rewrite Rmult_assoc, Q by lra. rewrite hav_dot. field.
Qed.
Lemma angle_fun u v a b : angle_of u v a -> angle_of u v b -> a = b.
Proof.
  intros [A1 A2] [B1 B2]. destruct (Rtotal_order a b) as [L|[E|L]]; [exfalso|exact E|exfalso].
  - pose proof (cos_decreasing_1 a b). lra.
  - pose proof (cos_decreasing_1 b a). lra.
Qed.
Lemma dot_sym u v : dot u v = dot v u. Proof. unfold dot. ring. Qed.
Lemma vec3_eq u v : vx u = vx v -> vy u = vy v -> vz u = vz v -> u = v.
Proof. destruct u, v. cbn. intros -> -> ->. reflexivity. Qed.
Lemma dot_one u v : unit3 u -> unit3 v -> dot u v = 1 -> u = v.
Proof.
  unfold unit3, dot. intros U V D.
  assert (M : (vx u - vx v) * (vx u - vx v) + (vy u - vy v) * (vy u - vy v) + (vz u - vz v) * (vz u - vz v) = 0) by lra.
  pose proof (Rle_0_sqr (vx u - vx v)) as X; pose proof (Rle_0_sqr (vy u - vy v)) as Y; pose proof (Rle_0_sqr (vz u - vz v)) as Z. unfold Rsqr in *.
  assert (X0 : Rsqr (vx u - vx v) = 0) by (unfold Rsqr; lra). assert (Y0 : Rsqr (vy u - vy v) = 0) by (unfold Rsqr; lra). assert (Z0 : Rsqr (vz u - vz v) = 0) by (unfold Rsqr; lra).
  apply Rsqr_0_uniq in X0, Y0, Z0. apply vec3_eq; lra.
Qed.
Lemma angle_zero u v a : unit3 u -> unit3 v -> angle_of u v a -> (a = 0 <-> u = v).
Proof.
  intros U V [A C]. split.
  - intros ->. rewrite cos_0 in C. apply dot_one; auto.
  - intros <-. unfold unit3 in U. rewrite U in C. destruct (Req_EM_T a 0) as [E|N]; [exact E|exfalso].
    pose proof (cos_decreasing_1 0 a). rewrite cos_0 in *. pose proof PI_RGT_0. lra.
Qed.

(* the triangle inequality *)
Lemma gram u v w : unit3 u -> unit3 v -> unit3 w ->
  0 <= 1 + 2 * dot u v * dot v w * dot u w - dot u v * dot u v - dot v w * dot v w - dot u w * dot u w.
Proof.
  intros U V W.
  set (det := vx u * (vy v * vz w - vz v * vy w) - vy u * (vx v * vz w - vz v * vx w) + vz u * (vx v * vy w - vy v * vx w)).
  assert (E : det * det = dot u u * dot v v * dot w w + 2 * dot u v * dot v w * dot u w - dot u v * dot u v * dot w w - dot v w * dot v w * dot u u - dot u w * dot u w * dot v v).
  { unfold det, dot. ring. }
  unfold unit3 in *. rewrite U, V, W in E. pose proof (Rle_0_sqr det) as P. unfold Rsqr in P. lra.
Qed.
Lemma angle_triangle u v w a b c : unit3 u -> unit3 v -> unit3 w -> angle_of u v a -> angle_of v w b -> angle_of u w c -> c <= a + b.
Proof.
  intros U V W [A1 A2] [B1 B2] [C1 C2]. destruct (Rle_lt_dec PI (a + b)) as [L|L]; [lra|].
  destruct (Rle_lt_dec c (a + b)) as [H|H]; [exact H|exfalso].
  assert (K : cos c < cos (a + b)) by (apply cos_decreasing_1; lra).
  rewrite cos_plus, C2 in K. pose proof (gram u v w U V W) as G. rewrite <- A2, <- B2 in G.
  pose proof (sin_ge_0 a) as Sa. pose proof (sin_ge_0 b) as Sb. pose proof (s2c2 a) as Ea. pose proof (s2c2 b) as Eb.
  (* 0 <= sin a sin b < cos a cos b - dot u w *)
  assert (P : 0 <= sin a * sin b) by (apply Rmult_le_pos; [apply Sa|apply Sb]; lra).
  set (d := cos a * cos b - dot u w) in *.
  assert (D : sin a * sin b < d) by (unfold d; lra).
  assert (Q : (sin a * sin b) * (sin a * sin b) < d * d) by nra.
  assert (I : d * d = cos a * cos a * (cos b * cos b) - 2 * cos a * cos b * dot u w + dot u w * dot u w) by (unfold d; ring).
  assert (J : (sin a * sin b) * (sin a * sin b) = (1 - cos a * cos a) * (1 - cos b * cos b)).
  { replace (1 - cos a * cos a) with (sin a * sin a) by lra. replace (1 - cos b * cos b) with (sin b * sin b) by lra. ring. }
  rewrite I, J in Q. ring_simplify in Q. ring_simplify in G. lra.
Qed.

(* degrees *)
Lemma d2r_pos : 0 < d2r. Proof. unfold d2r. pose proof PI_RGT_0. lra. Qed.
Lemma d2r_rad x : d2r * x = radians x. Proof. unfold d2r, radians. field. Qed.
Lemma angdist_rad r1 d1 r2 d2 : angdist r1 d1 r2 d2 = arcsec (angdistr (radians r1) (radians d1) (radians r2) (radians d2)).
Proof.
  unfold angdist, angdistr, arcsec. rewrite !d2r_rad. set (h := asin _). pose proof PI_RGT_0. unfold d2r. field. lra.
Qed.
Lemma arcsec_lt a b : arcsec a < arcsec b <-> a < b.
Proof.
  unfold arcsec. pose proof PI_RGT_0 as P. split; intros H.
  - assert (E : forall x, 3600 * (x * 180 / PI) = x * (648000 / PI)) by (intros; field; lra). rewrite !E in H.
    apply Rmult_lt_reg_r in H; [exact H|]. apply Rdiv_lt_0_compat; lra.
  - assert (E : forall x, 3600 * (x * 180 / PI) = x * (648000 / PI)) by (intros; field; lra). rewrite !E.
    apply Rmult_lt_compat_r; [apply Rdiv_lt_0_compat; lra|exact H].
Qed.
Lemma arcsec_rad x : arcsec (radians x) = 3600 * x.
Proof. unfold arcsec, radians. pose proof PI_RGT_0. field. lra. Qed.
(* comparison with a radius *)
Lemma less_ok r1 d1 r2 d2 rad : 0 <= rad <= 648000 ->
  (hav (radians r1) (radians d1) (radians r2) (radians d2) < sqr (sin (d2r * rad / 3600 / 2)) <-> angdist r1 d1 r2 d2 < rad).
Proof.
  intros B. rewrite angdist_rad. set (a := angdistr _ _ _ _).
  pose proof (angdistr_angle (radians r1) (radians d1) (radians r2) (radians d2)) as [A C]. fold a in A, C.
  rewrite hav_dot, <- C. set (t := d2r * rad / 3600).
  assert (T : 0 <= t <= PI). { unfold t, d2r. pose proof PI_RGT_0. split; [|]; nra. }
  replace rad with (arcsec t) by (unfold t, arcsec, d2r; pose proof PI_RGT_0; field; lra). rewrite arcsec_lt.
  unfold sqr. replace (t / 2) with (/ 2 * t) by field. rewrite half_sin. split; intros H.
  - destruct (Rlt_le_dec a t) as [L|L]; [exact L|exfalso]. assert (K : cos a <= cos t). { destruct L as [L|L]; [left; apply cos_decreasing_1; lra|rewrite L; lra]. } lra.
  - assert (K : cos t < cos a) by (apply cos_decreasing_1; lra). lra.
Qed.

(* rotation *)
Lemma atan2_ok y x : sqrt (sqr x + sqr y) * cos (atan2 y x) = x /\ sqrt (sqr x + sqr y) * sin (atan2 y x) = y /\ - PI <= atan2 y x <= PI.
Proof.
  unfold atan2. set (r := sqrt (sqr x + sqr y)). pose proof PI_RGT_0 as P.
  assert (N : 0 <= sqr x + sqr y). { pose proof (Rle_0_sqr x); pose proof (Rle_0_sqr y). unfold sqr, Rsqr in *. lra. }
  assert (Q : r * r = sqr x + sqr y) by (apply sqrt_sqrt; exact N). pose proof (sqrt_pos (sqr x + sqr y)) as Rp. fold r in Rp.
  destruct (Req_EM_T r 0) as [E|E].
  - rewrite E in Q. assert (X : Rsqr x = 0) by (pose proof (Rle_0_sqr x); pose proof (Rle_0_sqr y); unfold sqr, Rsqr in *; lra).
    assert (Y : Rsqr y = 0) by (pose proof (Rle_0_sqr x); pose proof (Rle_0_sqr y); unfold sqr, Rsqr in *; lra).
    apply Rsqr_0_uniq in X, Y. rewrite E. repeat split; lra.
  - assert (R0 : 0 < r) by lra. unfold sqr in Q.
    assert (Bx : -1 <= x / r <= 1).
    { pose proof (Rle_0_sqr y) as Y2. unfold Rsqr in Y2.
      assert (D : forall k, k * r <= x -> k <= x / r) by (intros k K; apply Rmult_le_reg_r with r; [exact R0|]; replace (x / r * r) with x by (field; lra); exact K).
      assert (D' : forall k, x <= k * r -> x / r <= k) by (intros k K; apply Rmult_le_reg_r with r; [exact R0|]; replace (x / r * r) with x by (field; lra); exact K).
      split; [apply D|apply D']; nra. }
    pose proof (acos_bound (x / r)) as AB.
    assert (S : r * sin (acos (x / r)) = Rabs y).
    { rewrite sin_acos by exact Bx. rewrite <- (sqrt_Rsqr_abs y).
      rewrite <- (sqrt_Rsqr r) at 1 by lra. rewrite <- sqrt_mult_alt by (unfold Rsqr; nra). f_equal.
      unfold Rsqr. replace (r * r * (1 - x / r * (x / r))) with (r * r - x * x) by (field; lra). lra. }
    destruct (Rlt_dec y 0) as [L|L].
    + rewrite cos_neg, sin_neg, cos_acos by exact Bx. repeat split; [field; lra| |lra|lra].
      rewrite Ropp_mult_distr_r_reverse, S. rewrite Rabs_left by exact L. lra.
    + rewrite cos_acos by exact Bx. repeat split; [field; lra| |lra|lra]. rewrite S. apply Rabs_right. lra.
Qed.
Lemma turn_dot e u v : dot (turn e u) (turn e v) = dot u v.
Proof.
  unfold dot, turn. cbn [vx vy vz]. pose proof (s2c2 e) as E.
  replace (_ + _) with (vx u * vx v + (sin e * sin e + cos e * cos e) * (vy u * vy v + vz u * vz v)) by ring. rewrite E. ring.
Qed.
Lemma radians_back x : radians (x * (180 / PI)) = x.
Proof. unfold radians. pose proof PI_RGT_0. field. lra. Qed.
Lemma rot_ok e r d : let '(r2, d2) := rot_point e r d in
  on_sky r2 d2 = turn (radians e) (on_sky r d) /\ 0 <= r2 <= 360 /\ -90 <= d2 <= 90.
Proof.
  unfold rot_point. replace (e * (PI / 180)) with (radians e) by (unfold radians; field).
  fold (radians r). fold (radians d). set (E := radians e). set (u := on_sky r d).
  assert (U : unit3 u) by apply direction_unit. assert (T : unit3 (turn E u)) by (unfold unit3; rewrite turn_dot; exact U).
  change (cos (radians d) * cos (radians r)) with (vx u). change (cos (radians d) * sin (radians r)) with (vy u). change (sin (radians d)) with (vz u).
  set (y2 := cos E * vy u - sin E * vz u) in *. set (z2 := cos E * vz u + sin E * vy u) in *.
  assert (N : vx u * vx u + y2 * y2 + z2 * z2 = 1) by exact T.
  assert (Z : -1 <= z2 <= 1). { pose proof (Rle_0_sqr (vx u)) as A; pose proof (Rle_0_sqr y2) as B. unfold Rsqr in *. split; nra. }
  assert (Cd : cos (asin z2) = sqrt (sqr (vx u) + sqr y2)). { rewrite cos_asin by exact Z. f_equal. unfold sqr, Rsqr. lra. }
  destruct (atan2_ok y2 (vx u)) as (A1 & A2 & A3). pose proof PI_RGT_0 as P. set (t := atan2 y2 (vx u)) in *.
  assert (On : forall r2, cos (radians r2) = cos t -> sin (radians r2) = sin t -> on_sky r2 (asin z2 * (180 / PI)) = turn E u).
  { intros r2 C S. unfold on_sky, direction. rewrite radians_back, C, S, Cd, sin_asin, A1, A2 by exact Z. reflexivity. }
  pose proof (asin_bound z2) as AB.
  assert (B2 : -90 <= asin z2 * (180 / PI) <= 90).
  { replace (-90) with (- (PI / 2) * (180 / PI)) by (field; lra). replace 90 with (PI / 2 * (180 / PI)) by (field; lra).
    assert (K : 0 <= 180 / PI) by (apply Rlt_le, Rdiv_lt_0_compat; lra). split; apply Rmult_le_compat_r; lra. }
  assert (B3 : -180 <= t * (180 / PI) <= 180).
  { assert (K : 0 <= 180 / PI) by (apply Rlt_le, Rdiv_lt_0_compat; lra).
    assert (E1 : PI * (180 / PI) = 180) by (field; lra).
    pose proof (Rmult_le_compat_r (180 / PI) t PI K (proj2 A3)) as U1.
    pose proof (Rmult_le_compat_r (180 / PI) (- PI) t K (proj1 A3)) as U2.
    rewrite Ropp_mult_distr_l_reverse in U2. rewrite E1 in U1, U2. lra. }
  destruct (Rlt_dec (t * (180 / PI)) 0) as [L|L]; (split; [|split; [lra|exact B2]]); apply On.
  - replace (radians (t * (180 / PI) + 360)) with (t + 2 * PI) by (unfold radians; field; lra). apply cos_plus_2PI || (rewrite cos_plus, cos_2PI, sin_2PI; ring).
  - replace (radians (t * (180 / PI) + 360)) with (t + 2 * PI) by (unfold radians; field; lra). rewrite sin_plus, cos_2PI, sin_2PI; ring.
  - rewrite radians_back. reflexivity.
  - rewrite radians_back. reflexivity.
Qed.

(* arrays *)
Lemma each_ok {A} d n (f : nat -> outcome A) (g : nat -> A) : (forall i, (i < n)%nat -> f i = Ok (g i)) -> each d n f = Ok (Arr d (map g (seq 0 n))).
Proof.
  intros H. unfold each. assert (G : forall l, (forall i, In i l -> f i = Ok (g i)) -> omapl f l = Ok (map g l)).
  { induction l as [|i l IH]; intros K; [reflexivity|]. cbn [omapl map]. rewrite (K i (or_introl eq_refl)). cbn [obind]. rewrite IH by (intros j J; apply K; right; exact J). reflexivity. }
  rewrite G; [reflexivity|]. intros i I. apply in_seq in I. apply H. lia.
Qed.
Lemma oget_nth {A} (l : list A) i d : (i < length l)%nat -> oget l i = Ok (nth i l d).
Proof. intros H. unfold oget. rewrite (nth_error_nth' l d H). reflexivity. Qed.
Lemma nth_each {A} (g : nat -> A) n i : (i < n)%nat -> nth_error (map g (seq 0 n)) i = Some (g i).
Proof.
  intros H. rewrite nth_error_map. assert (E : nth_error (seq 0 n) i = Some i).
  { rewrite (nth_error_nth' _ O) by (rewrite seq_length; exact H). rewrite seq_nth by exact H. reflexivity. }
  rewrite E. reflexivity.
Qed.
Lemma same_dims_true {A B} (a : arr A) (b : arr B) : same_dims a b = true <-> dims a = dims b.
Proof. unfold same_dims. destruct (list_eq_dec Nat.eq_dec (dims a) (dims b)); split; auto; discriminate. Qed.

(* moves *)
Lemma on_sky_meridian ra dec dec' : dot (on_sky ra dec) (on_sky ra dec') = cos (radians dec' - radians dec).
Proof.
  unfold on_sky, dot, direction. cbn [vx vy vz]. rewrite cos_minus. pose proof (s2c2 (radians ra)) as E.
  replace (_ + _) with (cos (radians dec) * cos (radians dec') * (sin (radians ra) * sin (radians ra) + cos (radians ra) * cos (radians ra)) + sin (radians dec) * sin (radians dec')) by ring.
  rewrite E. ring.
Qed.
Lemma angle_cos x : - PI <= x <= PI -> 0 <= Rabs x <= PI /\ cos (Rabs x) = cos x.
Proof.
  intros H. unfold Rabs. destruct (Rcase_abs x); [rewrite cos_neg|]; split; lra.
Qed.

(* Heron *)
Lemma heron_ok a b c : 0 <= a -> 0 <= b -> 0 <= c -> a <= b + c -> b <= a + c -> c <= a + b -> 0 <= heron a b c.
Proof.
  intros. unfold heron. repeat apply Rmult_le_pos; lra.
Qed.
Lemma heron_poly a b c : 16 * heron a b c = 2 * (a * a) * (b * b) + 2 * (b * b) * (c * c) + 2 * (c * c) * (a * a) - a * a * (a * a) - b * b * (b * b) - c * c * (c * c).
Proof. unfold heron. field. Qed.

(* matrices *)
Lemma upd_map {A} (h : nat -> A) n k v : forall s, upd (map h (seq s n)) k v = map (fun x => if (x =? s + k)%nat then v else h x) (seq s n).
Proof.
  revert k. induction n as [|n IH]; intros k s; [reflexivity|]. destruct k as [|k]; cbn [seq map upd].
  - rewrite Nat.add_0_r, Nat.eqb_refl. f_equal. apply map_ext_in. intros x X. apply in_seq in X.
    replace (x =? s)%nat with false by (symmetry; apply Nat.eqb_neq; lia). reflexivity.
  - replace (s =? s + S k)%nat with false by (symmetry; apply Nat.eqb_neq; lia). f_equal. rewrite IH. apply map_ext. intros x. replace (S s + k)%nat with (s + S k)%nat by lia. reflexivity.
Qed.
Lemma oset_map {A} (h : nat -> A) n k v : (k < n)%nat -> oset (map h (seq 0 n)) k v = Ok (map (fun x => if (x =? k)%nat then v else h x) (seq 0 n)).
Proof.
  intros K. unfold oset. rewrite map_length, seq_length. replace (k <? n)%nat with true by (symmetry; apply Nat.ltb_lt; exact K).
  rewrite upd_map. reflexivity.
Qed.
Lemma oget_map {A} (h : nat -> A) n k : (k < n)%nat -> oget (map h (seq 0 n)) k = Ok (h k).
Proof. intros K. unfold oget. rewrite (nth_each h n k K). reflexivity. Qed.
Definition mat (n : nat) (g : nat -> nat -> R) : list (list R) := map (fun j => map (g j) (seq 0 n)) (seq 0 n).
Lemma mat_ext n g h : (forall j i, (j < n)%nat -> (i < n)%nat -> g j i = h j i) -> mat n g = mat n h.
Proof.
  intros H. unfold mat. apply map_ext_in. intros j J. apply in_seq in J. apply map_ext_in. intros i I. apply in_seq in I. apply H; lia.
Qed.
Lemma mat_zero n : repeat (repeat 0 n) n = mat n (fun _ _ => 0).
Proof.
  unfold mat. assert (Q : forall A (x : A) m s, repeat x m = map (fun _ => x) (seq s m)).
  { induction m as [|m IH]; intros s; [reflexivity|]. cbn [repeat seq map]. f_equal. apply IH. }
  rewrite <- (Q _ 0 n O). apply Q.
Qed.
Lemma inner n (f : nat -> outcome R) (F : nat -> R) i : (i < n)%nat -> (forall j, (j < n)%nat -> f j = Ok (F j)) ->
  forall k s g, (s + k <= n)%nat ->
  ofold (fun m j => x <- f j ;; row <- oget m j ;; row <- oset row i x ;; oset m j row) (seq s k) (mat n g)
  = Ok (mat n (fun j' i' => if (i' =? i)%nat && (s <=? j')%nat && (j' <? s + k)%nat then F j' else g j' i')).
Proof.
  intros I Hf. induction k as [|k IH]; intros s g L; cbn [seq ofold].
  - f_equal. apply mat_ext. intros j' i' _ _. replace (_ && _)%bool with false; [reflexivity|].
    symmetry. rewrite Nat.add_0_r. destruct (Nat.leb_spec s j'), (Nat.ltb_spec j' s); try lia; destruct (i' =? i)%nat; reflexivity.
  - rewrite Hf by lia. cbn [obind]. unfold mat at 1. rewrite (oget_map (fun j => map (g j) (seq 0 n)) n s) by lia. cbn [obind].
    rewrite oset_map by exact I. cbn [obind]. unfold mat at 1. rewrite oset_map by lia. cbn [obind].
    set (g2 := fun j' i' => if (j' =? s)%nat && (i' =? i)%nat then F s else g j' i').
    assert (E : map (fun x => if (x =? s)%nat then map (fun x0 => if (x0 =? i)%nat then F s else g s x0) (seq 0 n) else map (g x) (seq 0 n)) (seq 0 n) = mat n g2).
    { unfold mat. apply map_ext. intros x. unfold g2. destruct (Nat.eqb_spec x s) as [->|N]; cbn [andb]; reflexivity. }
    rewrite E, IH by lia. f_equal. apply mat_ext. intros j' i' _ _. unfold g2.
    destruct (Nat.eqb_spec i' i), (Nat.eqb_spec j' s), (Nat.leb_spec (S s) j'), (Nat.leb_spec s j'), (Nat.ltb_spec j' (S s + k)), (Nat.ltb_spec j' (s + S k)); cbn [andb]; subst; try lia; reflexivity.
Qed.
Lemma outer n (f : nat -> nat -> outcome R) (F : nat -> nat -> R) : (forall i j, (i < n)%nat -> (j < n)%nat -> f i j = Ok (F i j)) ->
  forall k s g, (s + k <= n)%nat ->
  ofold (fun m i => ofold (fun m j => x <- f i j ;; row <- oget m j ;; row <- oset row i x ;; oset m j row) (seq (i + 1) (n - (i + 1))) m) (seq s k) (mat n g)
  = Ok (mat n (fun j' i' => if (s <=? i')%nat && (i' <? s + k)%nat && (i' <? j')%nat then F i' j' else g j' i')).
Proof.
  intros Hf. induction k as [|k IH]; intros s g L; cbn [seq ofold].
  - f_equal. apply mat_ext. intros j' i' _ _. rewrite Nat.add_0_r.
    destruct (Nat.leb_spec s i'), (Nat.ltb_spec i' s); cbn [andb]; try lia; reflexivity.
  - rewrite (inner n (f s) (F s) s) by (try lia; intros; apply Hf; lia). cbn [obind]. rewrite IH by lia. f_equal. apply mat_ext. intros j' i' J I.
    destruct (Nat.leb_spec (S s) i'), (Nat.leb_spec s i'), (Nat.ltb_spec i' (S s + k)), (Nat.ltb_spec i' (s + S k)), (Nat.ltb_spec i' j'), (Nat.eqb_spec i' s), (Nat.leb_spec (s + 1) j'), (Nat.ltb_spec j' (s + 1 + (n - (s + 1)))); cbn [andb]; subst; try lia; reflexivity.
Qed.

(* the vernal angle *)
Lemma vernal_sin ra dec : let u := direction ra dec in
  let p := sqr (sin (dec / 2)) + cos dec * sqr (sin (ra / 2)) in 2 * sqrt (p - p * p) = sqrt (vy u * vy u + vz u * vz u).
Proof.
  intros u p. assert (P : p = (1 - vx u) / 2).
  { unfold p, sqr. replace (dec / 2) with (/ 2 * dec) by field. replace (ra / 2) with (/ 2 * ra) by field. rewrite !half_sin. unfold u, direction. cbn [vx]. field. }
  pose proof (direction_unit ra dec) as U. fold u in U. unfold unit3, dot in U.
  replace (vy u * vy u + vz u * vz u) with (4 * (p - p * p)) by (rewrite P; field_simplify; lra).
  assert (N : 0 <= p - p * p). { rewrite P. pose proof (Rle_0_sqr (vy u)) as A; pose proof (Rle_0_sqr (vz u)) as B. unfold Rsqr in *. nra. }
  rewrite sqrt_mult by lra. f_equal. replace 4 with (2 * 2) by ring. symmetry. apply sqrt_square. lra.
Qed.
Lemma vernal_turn ra dec : let u := direction ra dec in let s := sqrt (vy u * vy u + vz u * vz u) in
  0 < s -> let e := asin (vz u / s) in s * sin e = vz u /\ s * cos e = Rabs (vy u).
Proof.
  intros u s S e.
  assert (N : 0 <= vy u * vy u + vz u * vz u). { pose proof (Rle_0_sqr (vy u)) as A; pose proof (Rle_0_sqr (vz u)) as B. unfold Rsqr in *. lra. }
  assert (Q : s * s = vy u * vy u + vz u * vz u) by (apply sqrt_sqrt; exact N).
  assert (B : -1 <= vz u / s <= 1).
  { pose proof (Rle_0_sqr (vy u)) as Y2. unfold Rsqr in Y2.
    assert (D : forall k, k * s <= vz u -> k <= vz u / s) by (intros k K; apply Rmult_le_reg_r with s; [exact S|]; replace (vz u / s * s) with (vz u) by (field; lra); exact K).
    assert (D' : forall k, vz u <= k * s -> vz u / s <= k) by (intros k K; apply Rmult_le_reg_r with s; [exact S|]; replace (vz u / s * s) with (vz u) by (field; lra); exact K).
    split; [apply D|apply D']; nra. }
  unfold e. split.
  - rewrite sin_asin by exact B. field. lra.
  - rewrite cos_asin by exact B. rewrite <- (sqrt_Rsqr_abs (vy u)). rewrite <- (sqrt_Rsqr s) at 1 by lra. rewrite <- sqrt_mult_alt by (unfold Rsqr; nra). f_equal.
    unfold Rsqr. replace (s * s * (1 - vz u / s * (vz u / s))) with (s * s - vz u * vz u) by (field; lra). lra.
Qed.
