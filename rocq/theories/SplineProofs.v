(* The algebra of cubic splines: the tridiagonal system, its solution by a forward and a
   backward sweep, and what the resulting pieces satisfy. *)
From Coq Require Import QArith Qabs Qfield Lqa Lia.
From Verif Require Import Base InterpSpec SplineSpec.
Local Open Scope nat_scope.

Lemma q_pos_ne a : (0 < a)%Q -> ~ (a == 0)%Q.
Proof. intros H C. lra. Qed.

Section Sweep.
Variables (n : nat) (x y al mu z b c d : nat -> Q).
Let h (k : nat) : Q := (x (k + 1) - x k)%Q.
Let l (i : nat) : Q := (2 * (x (i + 1) - x (i - 1)) - h (i - 1) * mu (i - 1))%Q.

(* what the sweeps establish *)
Record swept : Prop := {
  sw_mu : forall i, 1 <= i < n -> (mu i * l i == h i)%Q;
  sw_z : forall i, 1 <= i < n -> (z i * l i == al i - h (i - 1) * z (i - 1))%Q;
  sw_mu0 : (mu 0%nat == 0)%Q;
  sw_z0 : (z 0%nat == 0)%Q;
  sw_c : forall i, i < n -> (c i == z i - mu i * c (i + 1)%nat)%Q;
  sw_cn : (c n == 0)%Q;
  sw_b : forall i, i < n -> (b i == (y (i + 1)%nat - y i) / h i - (1#3) * h i * (c (i + 1)%nat + 2 * c i))%Q;
  sw_d : forall i, i < n -> (d i == (1#3) * (c (i + 1)%nat - c i) / h i)%Q
}.
Hypothesis Hs : swept.
Hypothesis Hh : forall i, i < n -> (0 < h i)%Q.

Lemma tri i : 1 <= i < n ->
  (h (i - 1) * c (i - 1)%nat + 2 * (h (i - 1) + h i) * c i + h i * c (i + 1)%nat == al i)%Q.
Proof using Hs.
  intros Hi. pose proof (sw_mu Hs i Hi) as M. pose proof (sw_z Hs i Hi) as Z.
  pose proof (sw_c Hs (i - 1) ltac:(lia)) as C1. replace (i - 1 + 1) with i in C1 by lia.
  pose proof (sw_c Hs i ltac:(lia)) as C2.
  assert (h (i - 1) * c (i - 1)%nat == h (i - 1) * z (i - 1)%nat - h (i - 1) * mu (i - 1)%nat * c i)%Q as E1
    by (rewrite C1; ring).
  assert (l i * c i == z i * l i - mu i * l i * c (i + 1)%nat)%Q as E2 by (rewrite C2; ring).
  rewrite M, Z in E2.
  assert (l i * c i == 2 * (h (i - 1) + h i) * c i - h (i - 1) * mu (i - 1)%nat * c i)%Q as E3.
  { unfold l, h. replace (i - 1 + 1) with i by lia. ring. }
  rewrite E3 in E2. rewrite E1. lra.
Qed.

Lemma c_zero : 0 < n -> (c 0%nat == 0)%Q.
Proof using Hs.
  intros Hn. rewrite (sw_c Hs 0 Hn), (sw_mu0 Hs), (sw_z0 Hs). ring.
Qed.

Lemma swept_through : through n x y b c d.
Proof using Hs Hh.
  intros k Hk. unfold cubic. fold (h k). pose proof (q_pos_ne _ (Hh k Hk)).
  rewrite (sw_b Hs k Hk), (sw_d Hs k Hk). field. assumption.
Qed.

Lemma swept_end k : k < n -> (curvature (c k) (d k) (h k) == 2 * c (k + 1)%nat)%Q.
Proof using Hs Hh.
  intros Hk. unfold curvature. pose proof (q_pos_ne _ (Hh k Hk)).
  rewrite (sw_d Hs k Hk). field. assumption.
Qed.

Lemma swept_smooth2 : 0 < n -> smooth2 n x c d.
Proof using Hs Hh.
  intros Hn. split; [|split].
  - intros k Hk. fold (h k). rewrite (swept_end k) by lia. unfold curvature. ring.
  - unfold curvature. rewrite c_zero by exact Hn. ring.
  - fold (h (n - 1)). rewrite (swept_end (n - 1)) by lia. replace (n - 1 + 1) with n by lia.
    rewrite (sw_cn Hs). reflexivity.
Qed.

Lemma slope_end k : k < n ->
  (slope (b k) (c k) (d k) (h k) == (y (k + 1)%nat - y k) / h k + (1#3) * h k * (c k + 2 * c (k + 1)%nat))%Q.
Proof using Hs Hh.
  intros Hk. unfold slope. pose proof (q_pos_ne _ (Hh k Hk)).
  rewrite (sw_b Hs k Hk), (sw_d Hs k Hk). field. assumption.
Qed.

(* the slope of two pieces where they meet *)
Lemma swept_jump k : k + 1 < n ->
  (slope (b k) (c k) (d k) (h k) - slope (b (k + 1)%nat) (c (k + 1)%nat) (d (k + 1)%nat) 0 ==
   (y (k + 1)%nat - y k) / h k - (y (k + 2)%nat - y (k + 1)%nat) / h (k + 1) + al (k + 1)%nat * (1#3))%Q.
Proof using Hs Hh.
  intros Hk. rewrite (slope_end k) by lia. unfold slope.
  rewrite (sw_b Hs (k + 1)) by lia. rewrite <- (tri (k + 1)) by lia.
  replace (k + 1 - 1) with k by lia. replace (k + 1 + 1) with (k + 2) by lia.
  pose proof (q_pos_ne _ (Hh k ltac:(lia))). pose proof (q_pos_ne _ (Hh (k + 1) ltac:(lia))).
  field. split; assumption.
Qed.
End Sweep.

(* the pivots are positive: diagonal dominance *)
Lemma pivot_step h0 h1 m : (0 < h0 -> 0 < h1 -> 0 <= m -> m <= 1 ->
  0 < 2 * (h0 + h1) - h0 * m /\ 0 <= h1 / (2 * (h0 + h1) - h0 * m) /\ h1 / (2 * (h0 + h1) - h0 * m) <= 1)%Q.
Proof.
  intros H0 H1 M0 M1. assert (h0 * m <= h0)%Q by nra.
  assert (0 < 2 * (h0 + h1) - h0 * m)%Q as P by lra. split; [exact P|]. split.
  - apply Qle_shift_div_l; [exact P|]. lra.
  - apply Qle_shift_div_r; [exact P|]. lra.
Qed.

(* ---------- uniqueness of the natural spline ---------- *)
Lemma dominance a b u v w : (0 < a -> 0 < b -> a * u + 2 * (a + b) * v + b * w == 0 ->
  Qabs u <= Qabs v -> Qabs v <= Qabs w)%Q.
Proof.
  intros Ha Hb E H. revert H.
  apply (Qabs_case u); apply (Qabs_case v); intros; apply (Qabs_case w); intros; nra.
Qed.

Section Unique.
Variables (n : nat) (x y b c d b' c' d' : nat -> Q).
Let h (k : nat) : Q := (x (k + 1) - x k)%Q.
Hypothesis Hn : 0 < n.
Hypothesis Hh : forall i, i < n -> (0 < h i)%Q.

(* the second derivative (halved) at node i, completed with 0 at the last node *)
Let ext (c : nat -> Q) (i : nat) : Q := if i <? n then c i else 0%Q.

Lemma ext_lt c0 i : i < n -> ext c0 i = c0 i.
Proof. intros H. unfold ext. destruct (Nat.ltb_spec i n); [reflexivity|lia]. Qed.
Lemma ext_n c0 : ext c0 n = 0%Q.
Proof. unfold ext. destruct (Nat.ltb_spec n n); [lia|reflexivity]. Qed.

Lemma nat_next b0 c0 d0 : natural_spline n x y b0 c0 d0 -> forall i, i < n ->
  (ext c0 (i + 1) == c0 i + 3 * d0 i * h i)%Q.
Proof using Hn.
  intros (_ & (S2 & _ & Se) & _) i Hi. unfold curvature in *. fold (h i) in *.
  destruct (Nat.eq_dec (i + 1) n) as [E|E].
  - rewrite E, ext_n. replace (n - 1) with i in Se by lia. fold (h i) in Se. lra.
  - rewrite ext_lt by lia. specialize (S2 i ltac:(lia)). fold (h i) in S2. lra.
Qed.

Lemma nat_tri b0 c0 d0 : natural_spline n x y b0 c0 d0 -> forall i, i + 1 < n ->
  (h i * ext c0 i + 2 * (h i + h (i + 1)) * ext c0 (i + 1) + h (i + 1) * ext c0 (i + 2) ==
   3 * ((y (i + 2)%nat - y (i + 1)%nat) / h (i + 1) - (y (i + 1)%nat - y i) / h i))%Q.
Proof using Hn Hh.
  intros N i Hi. pose proof (nat_next b0 c0 d0 N i ltac:(lia)) as N1.
  pose proof (nat_next b0 c0 d0 N (i + 1) ltac:(lia)) as N2.
  destruct N as (T & S2 & S1).
  pose proof (T i ltac:(lia)) as T1. pose proof (T (i + 1) ltac:(lia)) as T2. pose proof (S1 i ltac:(lia)) as S.
  unfold cubic, slope in *. replace (i + 1 + 1) with (i + 2) in * by lia.
  assert (x (i + 1)%nat - x i = h i)%Q as F1 by reflexivity.
  assert (x (i + 2)%nat - x (i + 1)%nat = h (i + 1))%Q as F2 by (unfold h; replace (i + 1 + 1) with (i + 2) by lia; reflexivity).
  rewrite F1 in T1, S. rewrite F2 in T2.
  rewrite (ext_lt c0 i) by lia. rewrite (ext_lt c0 (i + 1)) in * by lia.
  pose proof (Hh i ltac:(lia)) as P1. pose proof (Hh (i + 1) ltac:(lia)) as P2.
  set (h0 := h i) in *. set (h1 := h (i + 1)) in *. clearbody h0 h1. clear F1 F2.
  assert ((y (i + 2)%nat - y (i + 1)%nat) / h1 == b0 (i + 1)%nat + c0 (i + 1)%nat * h1 + d0 (i + 1)%nat * (h1 * h1))%Q as D2.
  { rewrite <- T2. field. apply q_pos_ne; assumption. }
  assert ((y (i + 1)%nat - y i) / h0 == b0 i + c0 i * h0 + d0 i * (h0 * h0))%Q as D1.
  { rewrite <- T1. field. apply q_pos_ne; assumption. }
  rewrite D1, D2, N2.
  assert (b0 (i + 1)%nat == b0 i + 2 * c0 i * h0 + 3 * d0 i * (h0 * h0))%Q as B by lra. rewrite B, N1. ring.
Qed.

Hypothesis N1 : natural_spline n x y b c d.
Hypothesis N2 : natural_spline n x y b' c' d'.
Let e (i : nat) : Q := (ext c i - ext c' i)%Q.

Lemma e_tri i : i + 1 < n -> (h i * e i + 2 * (h i + h (i + 1)) * e (i + 1)%nat + h (i + 1) * e (i + 2)%nat == 0)%Q.
Proof using Hn Hh N1 N2.
  intros Hi. pose proof (nat_tri b c d N1 i Hi) as A. pose proof (nat_tri b' c' d' N2 i Hi) as B.
  unfold e. set (s := (3 * _)%Q) in *. clearbody s. lra.
Qed.
Lemma e_0 : (e 0%nat == 0)%Q.
Proof using Hn N1 N2.
  destruct N1 as (_ & (_ & A & _) & _). destruct N2 as (_ & (_ & B & _) & _).
  unfold e. rewrite !ext_lt by lia. unfold curvature in *. lra.
Qed.
Lemma e_grow i : i < n -> (Qabs (e i) <= Qabs (e (i + 1)%nat))%Q.
Proof using Hn Hh N1 N2.
  induction i as [|i IH]; intros Hi.
  - rewrite e_0. apply Qabs_nonneg.
  - pose proof (e_tri i ltac:(lia)) as T. replace (S i) with (i + 1) by lia. replace (i + 1 + 1) with (i + 2) by lia.
    apply (dominance _ _ _ _ _ (Hh i ltac:(lia)) (Hh (i + 1) ltac:(lia)) T). apply IH. lia.
Qed.
Lemma e_zero i : i <= n -> (e i == 0)%Q.
Proof using Hn Hh N1 N2.
  intros Hi. assert (forall k : nat, (k <= n)%nat -> Qabs (e (n - k)%nat) <= 0)%Q as G.
  { induction k as [|k IH]; intros Hk.
    - rewrite Nat.sub_0_r. unfold e. rewrite !ext_n. apply Qle_refl.
    - eapply Qle_trans; [apply e_grow; lia|]. replace (n - S k + 1) with (n - k) by lia. apply IH. lia. }
  specialize (G (n - i) ltac:(lia)). replace (n - (n - i)) with i in G by lia.
  apply Qabs_Qle_condition in G. lra.
Qed.

Lemma natural_unique_ i : i < n -> (b i == b' i /\ c i == c' i /\ d i == d' i)%Q.
Proof using Hn Hh N1 N2.
  intros Hi. pose proof (e_zero i ltac:(lia)) as E0. pose proof (e_zero (i + 1) ltac:(lia)) as E1.
  pose proof (nat_next b c d N1 i Hi) as A. pose proof (nat_next b' c' d' N2 i Hi) as B.
  destruct N1 as (T & _). destruct N2 as (T' & _). specialize (T i Hi). specialize (T' i Hi).
  unfold cubic in *. fold (h i) in *. unfold e in *. rewrite !(ext_lt _ i) in E0 by assumption.
  pose proof (Hh i Hi) as P. set (h0 := h i) in *. clearbody h0.
  assert (c i == c' i)%Q as C by lra.
  assert (h0 * (d i - d' i) == 0)%Q as D0 by lra.
  assert (d i == d' i)%Q as D by (apply Qmult_integral in D0 as [|]; lra).
  rewrite C, D in T.
  assert (h0 * (b i - b' i) == 0)%Q as B0 by lra.
  assert (b i == b' i)%Q as B1 by (apply Qmult_integral in B0 as [|]; lra).
  auto.
Qed.
End Unique.
