(* Proofs about the flux of a spectrum through a filter. *)
From Coq Require Import QArith Qfield Lqa Lia.
From Verif Require Import Base OrderModel OrderSpec OrderProofs3 InterpModel InterpSpec InterpProofs IntegModel IntegSpec IntegProofs IntegProofs2 FluxModel FluxSpec.
Local Open Scope nat_scope.

Lemma line_ext xa ya xb yb t t' : (t == t')%Q -> (line xa ya xb yb t == line xa ya xb yb t')%Q.
Proof. intros E. unfold line. rewrite E. reflexivity. Qed.
Lemma line_mix xa ya xb yb t : (xa < xb)%Q -> (line xa ya xb yb t * (xb - xa) == ya * (xb - t) + yb * (t - xa))%Q.
Proof. intros H. unfold line. field. lra. Qed.

(* the curve between two nodes, and at a node *)
Lemma increasing_tl a x : increasing (a :: x) -> increasing x.
Proof. intros H i u v U V. exact (H (S i) u v U V). Qed.
Lemma curve_at : forall k x y xa ya xb yb t, increasing x -> nth_error x k = Some xa -> nth_error x (k + 1) = Some xb ->
  nth_error y k = Some ya -> nth_error y (k + 1) = Some yb -> (xa <= t)%Q -> (t <= xb)%Q -> (curve x y t == line xa ya xb yb t)%Q.
Proof.
  induction k as [|k IH]; intros x y xa ya xb yb t I Xa Xb Ya Yb Ha Hb.
  - destruct x as [|x0 [|x1 x]], y as [|y0 [|y1 y]]; try discriminate. cbn in Xa, Xb, Ya, Yb. injection Xa as <-. injection Xb as <-. injection Ya as <-. injection Yb as <-.
    unfold curve. cbn [combine]. cbn [pl]. destruct (combine x y) as [|[x2 y2] r] eqn:Er; [reflexivity|].
    destruct (Qlt_le_dec t x1); [reflexivity|]. assert (E : (t == x1)%Q) by lra.
    assert (L01 : (x0 < x1)%Q) by (apply (I 0); reflexivity). rewrite (line_ext x0 y0 x1 y1 _ _ E), (line_b _ _ _ _ L01).
    destruct x as [|x2' x], y as [|y2' y]; try discriminate. cbn [combine] in Er. injection Er as -> -> <-.
    assert (L12 : (x1 < x2)%Q) by (apply (I 1); reflexivity).
    cbn [pl]. destruct (combine x y); [|destruct (Qlt_le_dec t x2); [|lra]]; rewrite (line_ext x1 y1 x2 y2 _ _ E); apply line_a.
  - destruct x as [|x0 x], y as [|y0 y]; try discriminate. cbn [nth_error plus] in *.
    destruct x as [|x1 x], y as [|y1 y]; try (destruct k; discriminate).
    assert (L : (x1 <= xa)%Q). { destruct k; [cbn in Xa; injection Xa as ->; lra|]. apply Qlt_le_weak. eapply (increasing_lt _ (increasing_tl _ _ I) 0 (S k)); [lia|reflexivity|exact Xa]. }
    rewrite <- (IH (x1 :: x) (y1 :: y) xa ya xb yb t (increasing_tl _ _ I) Xa Xb Ya Yb Ha Hb).
    unfold curve. cbn [combine]. change (pl ((x0, y0) :: (x1, y1) :: combine x y) t) with
      (match combine x y with [] => line x0 y0 x1 y1 t | _ => if Qlt_le_dec t x1 then line x0 y0 x1 y1 t else pl ((x1, y1) :: combine x y) t end).
    destruct (combine x y) eqn:Er.
    + exfalso. assert (K1 : k + 1 < length (x1 :: x)) by (apply nth_error_Some; congruence). assert (K2 : k + 1 < length (y1 :: y)) by (apply nth_error_Some; congruence).
      cbn [length] in K1, K2. destruct x as [|x2 x]; [cbn in K1; lia|]. destruct y as [|y2 y]; [cbn in K2; lia|discriminate].
    + destruct (Qlt_le_dec t x1); [lra|reflexivity].
Qed.
Lemma node_seg (x : list Q) k : k + 1 < length x -> exists a b, nth_error x k = Some a /\ nth_error x (k + 1) = Some b.
Proof.
  intros L. destruct (nth_error x k) as [a|] eqn:A; [|apply nth_error_None in A; lia].
  destruct (nth_error x (k + 1)) as [b|] eqn:B; [|apply nth_error_None in B; lia]. eauto.
Qed.
Lemma curve_node x y k xa ya : increasing x -> length x = length y -> 2 <= length x -> nth_error x k = Some xa -> nth_error y k = Some ya -> (curve x y xa == ya)%Q.
Proof.
  intros I L L2 Xa Ya. assert (K : k < length x) by (apply nth_error_Some; congruence).
  destruct (Nat.lt_ge_cases (k + 1) (length x)) as [H|H].
  - destruct (node_seg x k H) as (a & b & A & B). rewrite L in H. destruct (node_seg y k H) as (c & d & C & D).
    rewrite A in Xa. injection Xa as <-. rewrite C in Ya. injection Ya as <-. pose proof (I _ _ _ A B).
    rewrite (curve_at k x y a c b d a I A B C D); [apply line_a|lra|lra].
  - assert (H' : (k - 1) + 1 < length x) by lia. destruct (node_seg x (k - 1) H') as (a & b & A & B). rewrite L in H'. destruct (node_seg y (k - 1) H') as (c & d & C & D).
    pose proof (I _ _ _ A B). assert (Ek : k - 1 + 1 = k) by lia. rewrite Ek in *. rewrite B in Xa. injection Xa as <-. rewrite D in Ya. injection Ya as <-.
    rewrite (curve_at (k - 1) x y a c b d b I A); try rewrite Ek; try assumption; [apply line_b; assumption|lra|lra].
Qed.
(* which segment *)
Lemma seg_of : forall x t f l, increasing x -> 2 <= length x -> first_last x f l -> (f <= t)%Q -> (t <= l)%Q ->
  exists k a b, nth_error x k = Some a /\ nth_error x (k + 1) = Some b /\ (a <= t)%Q /\ (t <= b)%Q.
Proof.
  induction x as [|x0 x IH]; intros t f l I L [F B] Hf Hl; [cbn in L; lia|]. destruct x as [|x1 x]; [cbn in L; lia|]. cbn in F. injection F as <-.
  destruct (Qlt_le_dec x1 t) as [H|H].
  - destruct x as [|x2 x].
    + cbn in B. injection B as <-. lra.
    + destruct (IH t x1 l (increasing_tl _ _ I)) as (k & a & b & A & Bb & Ha & Hb).
      * cbn; lia.
      * split; [reflexivity|]. cbn [length Nat.sub nth_error] in *. exact B.
      * lra.
      * exact Hl.
      * exists (S k), a, b. auto.
  - exists 0, x0, x1. repeat split; auto.
Qed.
Lemma curve_bounds x y f l t m M : increasing x -> length x = length y -> 2 <= length x -> first_last x f l -> (f <= t)%Q -> (t <= l)%Q ->
  (forall v, In v y -> (m <= v)%Q /\ (v <= M)%Q) -> (m <= curve x y t)%Q /\ (curve x y t <= M)%Q.
Proof.
  intros I L L2 FL Hf Hl Hy. destruct (seg_of x t f l I L2 FL Hf Hl) as (k & a & b & A & B & Ha & Hb).
  assert (K : k + 1 < length y) by (rewrite <- L; apply nth_error_Some; congruence). destruct (node_seg y k K) as (c & d & C & D).
  pose proof (I _ _ _ A B) as Lab. rewrite (curve_at k x y a c b d t I A B C D Ha Hb).
  destruct (Hy c (nth_error_In _ _ C)), (Hy d (nth_error_In _ _ D)). pose proof (line_mix a c b d t Lab) as E.
  split.
  - apply (Qmult_le_r _ _ (b - a)); [lra|]. rewrite E. nra.
  - apply (Qmult_le_r _ _ (b - a)); [lra|]. rewrite E. nra.
Qed.
Lemma curve_combination x y z a b t f l : increasing x -> length x = length y -> length x = length z -> 2 <= length x -> first_last x f l -> (f <= t)%Q -> (t <= l)%Q ->
  (curve x (map (fun p => a * fst p + b * snd p)%Q (combine y z)) t == a * curve x y t + b * curve x z t)%Q.
Proof.
  intros I Ly Lz L2 FL Hf Hl. destruct (seg_of x t f l I L2 FL Hf Hl) as (k & u & v & U & V & Hu & Hv).
  assert (K : k + 1 < length x) by (apply nth_error_Some; congruence).
  destruct (node_seg y k ltac:(lia)) as (y0 & y1 & Y0 & Y1), (node_seg z k ltac:(lia)) as (z0 & z1 & Z0 & Z1).
  assert (N : forall i p q, nth_error y i = Some p -> nth_error z i = Some q -> nth_error (map (fun p => a * fst p + b * snd p)%Q (combine y z)) i = Some (a * p + b * q)%Q).
  { clear. intros i. revert y z. induction i as [|i IH]; intros [|y0 y] [|z0 z] p q E F; try discriminate; cbn in *; [congruence|auto]. }
  pose proof (I _ _ _ U V) as Luv.
  rewrite (curve_at k x _ _ _ _ _ t I U V (N _ _ _ Y0 Z0) (N _ _ _ Y1 Z1) Hu Hv), (curve_at k x y u y0 v y1 t I U V Y0 Y1 Hu Hv), (curve_at k x z u z0 v z1 t I U V Z0 Z1 Hu Hv).
  unfold line. field. lra.
Qed.

(* the trapezoid rule *)
Lemma rule_cons f p q g : (rule f (p :: q :: g) == (f p + f q) / 2 * (q - p) + rule f (q :: g))%Q.
Proof. unfold rule, trap_sum. cbn [map combine]. change (segments ((p, f p) :: (q, f q) :: combine g (map f g))) with (((p, f p), (q, f q)) :: segments ((q, f q) :: combine g (map f g))). cbn [sum_with fold_right trap]. reflexivity. Qed.
Lemma rule_one f p : rule f [p] = 0%Q. Proof. reflexivity. Qed.
Lemma rule_ext f h : forall g, (forall x, In x g -> (f x == h x)%Q) -> (rule f g == rule h g)%Q.
Proof.
  induction g as [|p g IH]; intros H; [reflexivity|]. destruct g as [|q g]; [reflexivity|]. rewrite !rule_cons, IH by (intros x I; apply H; right; exact I).
  rewrite (H p), (H q) by (cbn; auto). reflexivity.
Qed.
Lemma rule_scale c f : forall g, (rule (fun x => c * f x)%Q g == c * rule f g)%Q.
Proof. induction g as [|p g IH]; [unfold rule, trap_sum; cbn; lra|]. destruct g as [|q g]; [rewrite !rule_one; lra|]. rewrite !rule_cons, IH. field. Qed.
Lemma rule_plus f h : forall g, (rule (fun x => f x + h x)%Q g == rule f g + rule h g)%Q.
Proof. induction g as [|p g IH]; [unfold rule, trap_sum; cbn; lra|]. destruct g as [|q g]; [rewrite !rule_one; lra|]. rewrite !rule_cons, IH. field. Qed.
Lemma rule_le f h : forall g, nondecreasing g -> (forall x, In x g -> (f x <= h x)%Q) -> (rule f g <= rule h g)%Q.
Proof.
  induction g as [|p g IH]; intros N H; [apply Qle_refl|]. destruct g as [|q g]; [apply Qle_refl|]. rewrite !rule_cons.
  assert (Lpq : (p <= q)%Q) by (apply (N 0); reflexivity).
  assert (rule f (q :: g) <= rule h (q :: g))%Q by (apply IH; [intros i u v U V; exact (N (S i) u v U V)|intros x I; apply H; right; exact I]).
  pose proof (H p (or_introl eq_refl)). pose proof (H q (or_intror (or_introl eq_refl))).
  assert ((f p + f q) / 2 * (q - p) <= (h p + h q) / 2 * (q - p))%Q; [|lra]. apply Qmult_le_compat_r; [|lra]. apply Qmult_le_compat_r; [lra|discriminate].
Qed.

(* the nodes that the loop visits *)
Fixpoint visit (fuel : nat) (flam lam : list Q) (i j : nat) : list Q :=
  match fuel with
  | O => []
  | S fuel => if (i <? length flam - 1) && (j <? length lam - 1) then
      match nth_error flam (i + 1), nth_error lam (j + 1) with
      | Some a, Some b => if qlt a b then a :: visit fuel flam lam (i + 1) j else b :: visit fuel flam lam i (j + 1)
      | _, _ => []
      end else []
  end.

Section Loop.
Variables flam lam : list Q.
Hypothesis If : increasing flam.
Hypothesis Il : increasing lam.
Hypothesis Lf : 1 <= length flam.
(* where the loop is: the previous node is in the current segment of both *)
Definition placed (i j : nat) (p : Q) : Prop :=
  (exists a, nth_error flam i = Some a /\ (a <= p)%Q) /\ (forall b, nth_error flam (i + 1) = Some b -> (p <= b)%Q) /\
  (exists a, nth_error lam j = Some a /\ (a <= p)%Q) /\ (forall b, nth_error lam (j + 1) = Some b -> (p <= b)%Q).
Lemma oget_some {A} (l : list A) i a : nth_error l i = Some a -> oget l i = Ok a.
Proof. intros E. unfold oget. rewrite E. reflexivity. Qed.
Lemma placed_f i j p a b : placed i j p -> nth_error flam (i + 1) = Some a -> nth_error lam (j + 1) = Some b -> (a < b)%Q -> placed (i + 1) j a.
Proof.
  intros (P1 & P2 & (c & C & Hc) & P4) A B Hab. split; [exists a; split; [exact A|lra]|]. split; [intros d D; apply Qlt_le_weak; eapply If; eauto|].
  split; [exists c; split; [exact C|specialize (P2 a A); lra]|]. intros d D. rewrite B in D. injection D as <-. lra.
Qed.
Lemma placed_l i j p a b : placed i j p -> nth_error flam (i + 1) = Some a -> nth_error lam (j + 1) = Some b -> (b <= a)%Q -> placed i (j + 1) b.
Proof.
  intros ((c & C & Hc) & P2 & P3 & P4) A B Hab. split; [exists c; split; [exact C|specialize (P4 b B); lra]|].
  split; [intros d D; rewrite A in D; injection D as <-; lra|]. split; [exists b; split; [exact B|lra]|]. intros d D. apply Qlt_le_weak; eapply Il; eauto.
Qed.
Lemma interp_ok x y k a b t : increasing x -> length x = length y -> nth_error x k = Some a -> nth_error x (k + 1) = Some b -> (a <= t)%Q -> (t <= b)%Q ->
  exists r, flux_interpolate x y t k = Ok (Some r) /\ (r == curve x y t)%Q.
Proof.
  intros I L A B Ha Hb. assert (K : k + 1 < length y) by (rewrite <- L; apply nth_error_Some; congruence). destruct (node_seg y k K) as (c & d & C & D).
  pose proof (I _ _ _ A B) as Lab. destruct (interp_line a c b d t Lab) as (r & E & V). exists r. unfold flux_interpolate.
  rewrite (oget_some _ _ _ C), (oget_some _ _ _ D), (oget_some _ _ _ A), (oget_some _ _ _ B). cbn [obind]. rewrite E. split; [reflexivity|].
  rewrite V. symmetry. apply (curve_at k x y a c b d t I A B C D Ha Hb).
Qed.
Definition product (fres sed : list Q) (t : Q) : Q := (curve flam fres t * curve lam sed t)%Q.

Section Covered.
Variables fl ll : Q.
Hypothesis Ff : nth_error flam (length flam - 1) = Some fl.
Hypothesis Fll : nth_error lam (length lam - 1) = Some ll.
Lemma le_last x l i a : increasing x -> nth_error x (length x - 1) = Some l -> nth_error x i = Some a -> (a <= l)%Q.
Proof.
  intros I E A. assert (K : i < length x) by (apply nth_error_Some; congruence). eapply nondecreasing_mono; [apply increasing_weak, I| |exact A|exact E]. lia.
Qed.
Lemma loop_ok fres sed : length flam = length fres -> length lam = length sed -> 2 <= length flam -> (fl < ll)%Q ->
  forall fuel i j p pv v, (length flam - 1 - i) + (length lam - 1 - j) < fuel -> i < length flam -> j < length lam - 1 -> placed i j p ->
  (pv == product fres sed p)%Q ->
  exists r, flux_loop fuel flam fres lam sed i j p (Some pv) (Some v) = Ok (Some r) /\ (r == v + rule (product fres sed) (p :: visit fuel flam lam i j))%Q.
Proof.
  intros Lr Ls L2 Cov. induction fuel as [|fuel IH]; intros i j p pv v Fu Hi Hj P Epv; [lia|]. cbn [flux_loop visit].
  destruct (Nat.ltb_spec i (length flam - 1)) as [Hi'|Hi']; cbn [andb].
  2:{ assert (i = length flam - 1) as -> by lia. rewrite Nat.eqb_refl. exists v. split; [reflexivity|]. rewrite rule_one. lra. }
  destruct (Nat.ltb_spec j (length lam - 1)) as [Hj'|Hj']; [|lia].
  destruct (nth_error flam (i + 1)) as [a|] eqn:A; [|apply nth_error_None in A; lia].
  destruct (nth_error lam (j + 1)) as [b|] eqn:B; [|apply nth_error_None in B; lia].
  rewrite (oget_some _ _ _ A), (oget_some _ _ _ B). cbn [obind]. destruct (qlt a b) eqn:Eab.
  - apply qlt_true in Eab. pose proof (placed_f i j p a b P A B Eab) as P'.
    destruct (nth_error fres (i + 1)) as [y|] eqn:Y; [|apply nth_error_None in Y; lia]. rewrite (oget_some _ _ _ Y). cbn [obind].
    destruct P' as (P1 & P2 & (c & C & Hc) & P4). destruct (interp_ok lam sed j c b a Il Ls C B Hc ltac:(lra)) as (s & -> & Es). cbn [obind times option_map accumulate].
    assert (Ev : (y * s == product fres sed a)%Q) by (unfold product; rewrite Es, (curve_node flam fres (i + 1) a y If Lr L2 A Y); reflexivity).
    destruct (IH (i + 1) j a (y * s)%Q (v + (1 # 2) * (y * s + pv) * (a - p))%Q) as (r & E & R); [lia|lia|lia| |exact Ev|].
    + split; [exact P1|]. split; [exact P2|]. split; [exists c; auto|exact P4].
    + exists r. split; [exact E|]. rewrite R, rule_cons, Ev, Epv. field.
  - apply qlt_false in Eab. pose proof (placed_l i j p a b P A B Eab) as P'.
    destruct (nth_error sed (j + 1)) as [y|] eqn:Y; [|apply nth_error_None in Y; lia]. rewrite (oget_some _ _ _ Y). cbn [obind].
    assert (Hj2 : j + 1 < length lam - 1).
    { destruct (Nat.lt_ge_cases (j + 1) (length lam - 1)) as [H|H]; [exact H|exfalso]. replace (j + 1) with (length lam - 1) in B by lia. rewrite Fll in B. injection B as <-.
      pose proof (le_last flam fl (i + 1) a If Ff A). lra. }
    destruct P' as ((c & C & Hc) & P2 & P3 & P4). destruct (interp_ok flam fres i c a b If Lr C A Hc ltac:(lra)) as (s & -> & Es). cbn [obind times option_map accumulate].
    assert (Ev : (y * s == product fres sed b)%Q) by (unfold product; rewrite Es, (curve_node lam sed (j + 1) b y Il Ls ltac:(lia) B Y); ring).
    destruct (IH i (j + 1) b (y * s)%Q (v + (1 # 2) * (y * s + pv) * (b - p))%Q) as (r & E & R); [lia|lia|lia| |exact Ev|].
    + split; [exists c; auto|]. split; [exact P2|]. split; [exact P3|exact P4].
    + exists r. split; [exact E|]. rewrite R, rule_cons, Ev, Epv. field.
Qed.
(* the spectrum ends before the filter *)
Lemma loop_short fres sed : length flam = length fres -> length lam = length sed -> (ll <= fl)%Q ->
  forall fuel i j p pv v, (length flam - 1 - i) + (length lam - 1 - j) < fuel -> i < length flam - 1 -> j < length lam -> placed i j p ->
  flux_loop fuel flam fres lam sed i j p pv v = Ok None.
Proof.
  intros Lr Ls Cov. induction fuel as [|fuel IH]; intros i j p pv v Fu Hi Hj P; [lia|]. cbn [flux_loop].
  destruct (Nat.ltb_spec i (length flam - 1)) as [Hi'|Hi']; [|lia]. cbn [andb].
  destruct (Nat.ltb_spec j (length lam - 1)) as [Hj'|Hj'].
  2:{ destruct (Nat.eqb_spec i (length flam - 1)); [lia|reflexivity]. }
  destruct (nth_error flam (i + 1)) as [a|] eqn:A; [|apply nth_error_None in A; lia].
  destruct (nth_error lam (j + 1)) as [b|] eqn:B; [|apply nth_error_None in B; lia].
  rewrite (oget_some _ _ _ A), (oget_some _ _ _ B). cbn [obind]. destruct (qlt a b) eqn:Eab.
  - apply qlt_true in Eab. pose proof (placed_f i j p a b P A B Eab) as P'.
    destruct (nth_error fres (i + 1)) as [y|] eqn:Y; [|apply nth_error_None in Y; lia]. rewrite (oget_some _ _ _ Y). cbn [obind].
    destruct P' as (P1 & P2 & (c & C & Hc) & P4). destruct (interp_ok lam sed j c b a Il Ls C B Hc ltac:(lra)) as (s & -> & Es). cbn [obind].
    apply IH; [lia| |lia|split; [exact P1|]; split; [exact P2|]; split; [exists c; auto|exact P4]].
    destruct (Nat.lt_ge_cases (i + 1) (length flam - 1)) as [H|H]; [exact H|exfalso]. replace (i + 1) with (length flam - 1) in A by lia. rewrite Ff in A. injection A as <-.
    pose proof (le_last lam ll (j + 1) b Il Fll B). lra.
  - apply qlt_false in Eab. pose proof (placed_l i j p a b P A B Eab) as P'.
    destruct (nth_error sed (j + 1)) as [y|] eqn:Y; [|apply nth_error_None in Y; lia]. rewrite (oget_some _ _ _ Y). cbn [obind].
    destruct P' as ((c & C & Hc) & P2 & P3 & P4). destruct (interp_ok flam fres i c a b If Lr C A Hc ltac:(lra)) as (s & -> & Es). cbn [obind].
    apply IH; [lia|lia|lia|split; [exists c; auto|]; split; [exact P2|]; split; [exact P3|exact P4]].
Qed.
(* what is visited *)
Lemma visit_ok : (fl < ll)%Q -> forall fuel i j p, (length flam - 1 - i) + (length lam - 1 - j) < fuel -> i < length flam -> j < length lam - 1 -> placed i j p ->
  (i = length flam - 1 -> p = fl /\ forall b, nth_error lam (j + 1) = Some b -> (fl < b)%Q) ->
  let g := p :: visit fuel flam lam i j in
  nth_error g (length g - 1) = Some fl /\ nondecreasing g /\
  (forall k x, i < k -> nth_error flam k = Some x -> In x g) /\
  (forall k x, j < k -> nth_error lam k = Some x -> (x <= fl)%Q -> In x g) /\
  (forall x, In x (visit fuel flam lam i j) -> In x flam \/ (In x lam /\ (p <= x)%Q /\ (x <= fl)%Q)) /\ (forall x, In x g -> (p <= x)%Q).
Proof.
  intros Cov. induction fuel as [|fuel IH]; intros i j p Fu Hi Hj P Last; [lia|]. cbn [visit].
  destruct (Nat.ltb_spec i (length flam - 1)) as [Hi'|Hi']; cbn [andb].
  2:{ assert (i = length flam - 1) as -> by lia. destruct (Last eq_refl) as [-> Lb]. cbn.
      split; [reflexivity|]. split; [intros k a b U V; destruct k; cbn in V; [discriminate|destruct k; discriminate]|].
      split; [intros k x Hk E; assert (k < length flam) by (apply nth_error_Some; congruence); lia|].
      split.
      { intros k x Hk E Hx. exfalso.
        destruct (nth_error lam (j + 1)) as [b|] eqn:B; [|apply nth_error_None in B; lia]. specialize (Lb b eq_refl).
        assert (b <= x)%Q by (eapply nondecreasing_mono; [apply increasing_weak, Il| |exact B|exact E]; lia). lra. }
      split; [intros x []|]. intros x [<-|[]]. apply Qle_refl. }
  destruct (Nat.ltb_spec j (length lam - 1)) as [Hj'|Hj']; [|lia].
  destruct (nth_error flam (i + 1)) as [a|] eqn:A; [|apply nth_error_None in A; lia].
  destruct (nth_error lam (j + 1)) as [b|] eqn:B; [|apply nth_error_None in B; lia].
  assert (Pa : (p <= a)%Q) by exact (proj1 (proj2 P) a A). assert (Pb : (p <= b)%Q) by exact (proj2 (proj2 (proj2 P)) b B).
  pose proof (le_last flam fl (i + 1) a If Ff A) as Af.
  assert (Step : forall q g, (p <= q)%Q -> nth_error (q :: g) (length (q :: g) - 1) = Some fl -> nondecreasing (q :: g) -> (forall x, In x (q :: g) -> (q <= x)%Q) ->
    nth_error (p :: q :: g) (length (p :: q :: g) - 1) = Some fl /\ nondecreasing (p :: q :: g) /\ forall x, In x (p :: q :: g) -> (p <= x)%Q).
  { clear. intros q g Hpq N1 N2 N3. split; [cbn [length Nat.sub nth_error] in *; rewrite ?Nat.sub_0_r in *; exact N1|]. split.
    - intros [|k] u v U V; [cbn in U, V; injection U as <-; injection V as <-; exact Hpq|exact (N2 k u v U V)].
    - intros x [<-|I]; [apply Qle_refl|]. specialize (N3 x I). lra. }
  destruct (qlt a b) eqn:Eab.
  - apply qlt_true in Eab. destruct (IH (i + 1) j a) as (G1 & G2 & G3 & G4 & G5 & G6); [lia|lia|lia|eapply placed_f; eauto| |].
    { intros Ei. rewrite Ei in A. rewrite Ff in A. injection A as <-. split; [reflexivity|]. intros c C. rewrite B in C. injection C as <-. exact Eab. }
    destruct (Step a (visit fuel flam lam (i + 1) j) Pa G1 G2 G6) as (S1 & S2 & S3). split; [exact S1|]. split; [exact S2|].
    split; [intros k x Hk E; destruct (Nat.eq_dec k (i + 1)) as [->|Nk]; [rewrite A in E; injection E as <-; right; left; reflexivity|right; apply (G3 k); [lia|exact E]]|].
    split; [intros k x Hk E Hx; right; apply (G4 k); assumption|].
    split; [|exact S3]. intros x [<-|I]; [left; eapply nth_error_In; exact A|]. destruct (G5 x I) as [H|(H1 & H2 & H3)]; [auto|]. right. split; [exact H1|]. split; [lra|exact H3].
  - apply qlt_false in Eab. assert (Hj2 : j + 1 < length lam - 1).
    { destruct (Nat.lt_ge_cases (j + 1) (length lam - 1)) as [H|H]; [exact H|exfalso]. replace (j + 1) with (length lam - 1) in B by lia. rewrite Fll in B. injection B as <-. lra. }
    destruct (IH i (j + 1) b) as (G1 & G2 & G3 & G4 & G5 & G6); [lia|lia|lia|eapply placed_l; eauto|lia|].
    destruct (Step b (visit fuel flam lam i (j + 1)) Pb G1 G2 G6) as (S1 & S2 & S3). split; [exact S1|]. split; [exact S2|].
    split; [intros k x Hk E; right; apply (G3 k); assumption|].
    split; [intros k x Hk E Hx; destruct (Nat.eq_dec k (j + 1)) as [->|Nk]; [rewrite B in E; injection E as <-; right; left; reflexivity|right; apply (G4 k); [lia|exact E|exact Hx]]|].
    split; [|exact S3]. intros x [<-|I]; [right; split; [eapply nth_error_In; exact B|split; lra]|]. destruct (G5 x I) as [H|(H1 & H2 & H3)]; [auto|]. right. split; [exact H1|]. split; [lra|exact H3].
Qed.
(* the area of the filter that is left: finer nodes do not change it *)
Definition rest (pts : list (Q * Q)) (t : Q) : Q :=
  match pts with
  | (xa, ya) :: (xb, yb) :: r => ((line xa ya xb yb t + yb) / 2 * (xb - t) + sum_with trap (segments ((xb, yb) :: r)))%Q
  | _ => 0%Q
  end.
Lemma skipn_nth {A} (l : list A) i a : nth_error l i = Some a -> skipn i l = a :: skipn (i + 1) l.
Proof. revert i. induction l as [|x l IH]; intros [|i] E; try discriminate; cbn in *; [injection E as ->; reflexivity|auto]. Qed.
Lemma nth_combine {A B} (x : list A) (y : list B) i a b : nth_error x i = Some a -> nth_error y i = Some b -> nth_error (combine x y) i = Some (a, b).
Proof. revert x y. induction i as [|i IH]; intros [|x0 x] [|y0 y] E F; try discriminate; cbn in *; [congruence|auto]. Qed.
Lemma rule_rest fres : length flam = length fres -> (fl < ll)%Q ->
  forall fuel i j p, (length flam - 1 - i) + (length lam - 1 - j) < fuel -> i < length flam -> j < length lam - 1 -> placed i j p ->
  (rule (curve flam fres) (p :: visit fuel flam lam i j) == rest (skipn i (combine flam fres)) p)%Q.
Proof.
  intros Lr Cov. induction fuel as [|fuel IH]; intros i j p Fu Hi Hj P; [lia|]. cbn [visit].
  assert (Lc : length (combine flam fres) = length flam) by (rewrite combine_length; lia).
  destruct (Nat.ltb_spec i (length flam - 1)) as [Hi'|Hi']; cbn [andb].
  2:{ assert (i = length flam - 1) as -> by lia. rewrite rule_one. destruct (nth_error fres (length flam - 1)) as [y|] eqn:Y; [|apply nth_error_None in Y; lia].
      rewrite (skipn_nth _ _ _ (nth_combine _ _ _ _ _ Ff Y)). rewrite skipn_all2 by lia. reflexivity. }
  destruct (Nat.ltb_spec j (length lam - 1)) as [Hj'|Hj']; [|lia].
  destruct (node_seg flam i ltac:(lia)) as (x0 & a & X0 & A). destruct (node_seg fres i ltac:(lia)) as (y0 & y1 & Y0 & Y1).
  destruct (nth_error lam (j + 1)) as [b|] eqn:B; [|apply nth_error_None in B; lia]. rewrite A.
  pose proof (If _ _ _ X0 A) as L01. rewrite (skipn_nth _ _ _ (nth_combine _ _ _ _ _ X0 Y0)), (skipn_nth _ _ _ (nth_combine _ _ _ _ _ A Y1)). cbn [rest].
  destruct (proj1 P) as (x0' & X0' & Hx0). rewrite X0 in X0'. injection X0' as <-. pose proof (proj1 (proj2 P) a A) as Hpa.
  pose proof (curve_at i flam fres x0 y0 a y1 p If X0 A Y0 Y1 Hx0 Hpa) as Cp.
  destruct (qlt a b) eqn:Eab.
  - apply qlt_true in Eab. rewrite rule_cons. rewrite (IH (i + 1) j a); [|lia|lia|lia|eapply placed_f; eauto].
    pose proof (curve_at i flam fres x0 y0 a y1 a If X0 A Y0 Y1 ltac:(lra) ltac:(lra)) as Ca. rewrite (line_b x0 y0 a y1 L01) in Ca. rewrite Cp, Ca.
    rewrite (skipn_nth _ _ _ (nth_combine _ _ _ _ _ A Y1)). destruct (skipn (i + 1 + 1) (combine flam fres)) as [|[x2 y2] r]; cbn [rest].
    + unfold segments. cbn [tl combine sum_with fold_right]. reflexivity.
    + rewrite (line_a a y1 x2 y2). change (segments ((a, y1) :: (x2, y2) :: r)) with (((a, y1), (x2, y2)) :: segments ((x2, y2) :: r)). cbn [sum_with fold_right trap]. reflexivity.
  - apply qlt_false in Eab. assert (Hj2 : j + 1 < length lam - 1).
    { destruct (Nat.lt_ge_cases (j + 1) (length lam - 1)) as [H|H]; [exact H|exfalso]. replace (j + 1) with (length lam - 1) in B by lia. rewrite Fll in B. injection B as <-.
      pose proof (le_last flam fl (i + 1) a If Ff A). lra. }
    rewrite rule_cons. rewrite (IH i (j + 1) b); [|lia|lia|lia|eapply placed_l; eauto].
    assert (Hpb : (p <= b)%Q) by exact (proj2 (proj2 (proj2 P)) b B).
    pose proof (curve_at i flam fres x0 y0 a y1 b If X0 A Y0 Y1 ltac:(lra) Eab) as Cb. rewrite Cp, Cb.
    rewrite (skipn_nth _ _ _ (nth_combine _ _ _ _ _ X0 Y0)), (skipn_nth _ _ _ (nth_combine _ _ _ _ _ A Y1)). cbn [rest]. unfold line. field. lra.
Qed.
End Covered.
End Loop.
