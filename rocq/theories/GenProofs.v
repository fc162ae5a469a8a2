From Coq Require Import QArith Qround Qabs Lqa Lia.
From Verif Require Import Base VecProofs MatProofs GenModel GenSpec.
Local Open Scope nat_scope.

Lemma val_double : forall a, to_double a = val a.
Proof. destruct a; reflexivity. Qed.

Lemma wrap_id : forall z, (0 <= z < two64)%Z -> wrap64 z = z.
Proof. intros; apply Z.mod_small; assumption. Qed.

Lemma signed_ok : forall z, (- two63 <= z < two63)%Z -> signed64 z = Ok z.
Proof.
  intros z [H1 H2]. unfold signed64.
  apply Z.leb_le in H1. apply Z.ltb_lt in H2. now rewrite H1, H2.
Qed.

Lemma inj_sub : forall x y, (inject_Z (x - y) == inject_Z x - inject_Z y)%Q.
Proof. intros; unfold Zminus; rewrite inject_Z_plus, inject_Z_opp; ring. Qed.

Lemma s_sub_ok : forall a b, diff_fits a b ->
  exists d, s_sub b a = Ok d /\ (to_double d == val b - val a)%Q.
Proof.
  intros a b H.
  assert (W : forall x y, (0 <= y - x < two64)%Z -> wrap64 (wrap64 y - wrap64 x) = (y - x)%Z).
  { intros x y L. unfold wrap64. rewrite <- Zminus_mod. now apply Z.mod_small. }
  destruct a, b; cbn in H; unfold s_sub; cbn [kind_of common conv obind]; eexists; 
    try (split; [reflexivity| cbn [to_double val]; reflexivity]).
  - rewrite signed_ok by exact H. split; [reflexivity|]. apply inj_sub.
  - split; [reflexivity|]. cbn [to_double val]. rewrite W by exact H. apply inj_sub.
  - split; [reflexivity|]. cbn [to_double val]. rewrite W by exact H. apply inj_sub.
  - split; [reflexivity|]. cbn [to_double val]. rewrite W by exact H. apply inj_sub.
Qed.

Lemma fill_map {A} : forall (f : nat -> A) x n,
  ofold (fun v k => oset v k (f k)) (seq 0 n) (repeat x n) = Ok (map f (seq 0 n)).
Proof.
  intros f x n.
  assert (G : forall m p, ofold (fun v k => oset v k (f k)) (seq p m) (map f (seq 0 p) ++ repeat x m)
     = Ok (map f (seq 0 (p + m)))).
  { induction m; intro p; cbn [seq ofold repeat].
    - now rewrite app_nil_r, Nat.add_0_r.
    - assert (E : oset (map f (seq 0 p) ++ x :: repeat x m) p (f p) =
        Ok (map f (seq 0 (S p)) ++ repeat x m)).
      { unfold oset. rewrite (proj2 (Nat.ltb_lt _ _)).
        - f_equal. rewrite seq_S, map_app, <- app_assoc. cbn [map app plus].
          apply list_eq_nth_error. intro i. rewrite nth_error_upd.
          destruct (Nat.eqb_spec i p) as [E|N].
          + subst i. rewrite (proj2 (Nat.ltb_lt _ _)); cbn [andb].
            * rewrite nth_error_app2; rewrite map_length, seq_length; [|lia]. now rewrite Nat.sub_diag.
            * rewrite app_length, map_length, seq_length; cbn; lia.
          + cbn [andb]. destruct (Nat.lt_ge_cases i p).
            * rewrite !nth_error_app1; rewrite ?map_length, ?seq_length; auto.
            * rewrite !nth_error_app2; rewrite ?map_length, ?seq_length; auto.
              destruct (i - p) as [|q] eqn:Q; [lia|reflexivity].
        - rewrite app_length, map_length, seq_length; cbn; lia. }
      rewrite E. cbn [obind]. rewrite IHm. do 2 f_equal. f_equal. lia. }
  exact (G n 0).
Qed.

Lemma rgen_any : forall i j n d, n <> 1 -> (Z.of_nat n < two64)%Z -> s_sub j i = Ok d ->
  exists l, rgen i j n = Ok l /\ length l = n /\
  forall k, k < n -> exists x, nth_error l k = Some x /\
    (x == val i + inject_Z (Z.of_nat k) * (to_double d / inject_Z (Z.of_nat n - 1)))%Q.
Proof.
  intros i j n d N1 N2 D. unfold rgen. rewrite (proj2 (Nat.eqb_neq _ _) N1), D. cbn [obind].
  eexists; split; [apply fill_map|]. split; [now rewrite map_length, seq_length|].
  intros k K. eexists; split; [apply map_nth_error; rewrite nth_error_seq; rewrite (proj2 (Nat.ltb_lt _ _) K); reflexivity|].
  cbn [plus]. rewrite val_double. rewrite wrap_id by lia. reflexivity.
Qed.

Lemma rgen_ok : forall i j n, diff_fits i j -> n <> 1 -> (Z.of_nat n < two64)%Z ->
  exists l, rgen i j n = Ok l /\ evenly (val i) (val j) n l.
Proof.
  intros i j n F N1 N2. destruct (s_sub_ok i j F) as [d [D V]].
  destruct (rgen_any i j n d N1 N2 D) as [l [R [L H]]].
  exists l; split; [exact R|]. split; [exact L|]. intros k K. destruct (H k K) as [x [X E]].
  exists x; split; [exact X|]. now rewrite E, V.
Qed.

(* rgen_step *)
Lemma qle_false : forall a b : Q, (b < a)%Q -> Qle_bool a b = false.
Proof.
  intros a b H. destruct (Qle_bool a b) eqn:E; [|reflexivity].
  apply Qle_bool_iff in E. lra.
Qed.
Lemma qle_true : forall a b : Q, (a <= b)%Q -> Qle_bool a b = true.
Proof. intros; now apply Qle_bool_iff. Qed.

Lemma inj_le : forall a b, (a <= b)%Z -> (inject_Z a <= inject_Z b)%Q.
Proof. intros; now rewrite <- Zle_Qle. Qed.
Lemma inj_le_inv : forall a b, (inject_Z a <= inject_Z b)%Q -> (a <= b)%Z.
Proof. intros; now rewrite Zle_Qle. Qed.
Lemma inj_lt_inv : forall a b, (inject_Z a < inject_Z b)%Q -> (a < b)%Z.
Proof. intros; now rewrite Zlt_Qlt. Qed.

Lemma qround_ok : forall q, (0 <= q)%Q ->
  (0 <= qround q)%Z /\ (inject_Z (qround q) <= q + (1#2))%Q /\ (q + (1#2) < inject_Z (qround q) + 1)%Q.
Proof.
  intros q Q. unfold qround. rewrite qle_true by exact Q.
  pose proof (Qfloor_le (q + (1#2))) as L. pose proof (Qlt_floor (q + (1#2))) as U.
  rewrite inject_Z_plus in U. change (inject_Z 1) with 1%Q in U.
  split; [|now split].
  assert ((-1 < Qfloor (q + (1#2)))%Z); [|lia].
  apply inj_lt_inv. change (inject_Z (-1)) with (- (1))%Q. lra.
Qed.

Lemma qround_Z : forall z, (0 <= z)%Z -> qround (inject_Z z) = z.
Proof.
  intros z Z0. destruct (qround_ok (inject_Z z)) as [_ [A B]]; [apply (inj_le 0 z Z0)|].
  assert (qround (inject_Z z) < z + 1)%Z.
  { apply inj_lt_inv. rewrite inject_Z_plus. change (inject_Z 1) with 1%Q. lra. }
  assert (z < qround (inject_Z z) + 1)%Z.
  { apply inj_lt_inv. rewrite inject_Z_plus. change (inject_Z 1) with 1%Q. lra. }
  lia.
Qed.

(* number of whole steps *)
Definition steps_of (fl : bool) (d s : Q) : Z := if fl then qround (d / s) else Qfloor (d / s).

Definition floating (i j s : scalar) : bool :=
  match common (common (kind_of i) (kind_of j)) (kind_of s) with KF => true | _ => false end.

Lemma floor_unique : forall q z, (inject_Z z <= q)%Q -> (q < inject_Z z + 1)%Q -> Qfloor q = z.
Proof.
  intros q z A B. pose proof (Qfloor_le q). pose proof (Qlt_floor q) as U.
  rewrite inject_Z_plus in U. change (inject_Z 1) with 1%Q in U.
  assert (Qfloor q < z + 1)%Z.
  { apply inj_lt_inv. rewrite inject_Z_plus. change (inject_Z 1) with 1%Q. lra. }
  assert (z < Qfloor q + 1)%Z.
  { apply inj_lt_inv. rewrite inject_Z_plus. change (inject_Z 1) with 1%Q. lra. }
  lia.
Qed.

Lemma floor_div : forall a b, (0 < b)%Z -> Qfloor (inject_Z a / inject_Z b) = (a / b)%Z.
Proof. intros a b B. rewrite Zdiv_Qdiv. reflexivity. Qed.

Lemma qround_comp : forall a b, (a == b)%Q -> qround a = qround b.
Proof.
  intros a b E. unfold qround. rewrite E. destruct (Qle_bool 0 b); [apply Qfloor_comp|apply Qceiling_comp]; now rewrite E.
Qed.

Lemma quot_ok : forall (d s : Q), (0 <= d)%Q -> (0 < s)%Q -> (0 <= d / s)%Q.
Proof. intros. apply Qle_shift_div_l; lra. Qed.

(* The conversions of rgen_step change no value, and the quotient has the expected rounding. *)
Lemma step_conv : forall i j s, typed i -> typed j -> typed s -> step_fits i j s -> (0 < val s)%Q ->
  let c := common (common (kind_of i) (kind_of j)) (kind_of s) in
  exists ci cj cs, conv c i = Ok ci /\ conv c j = Ok cj /\ conv c s = Ok cs /\
    (to_double ci == val i)%Q /\ (to_double cj == val j)%Q /\
    ((val i <= val j)%Q -> exists q, step_quot cj ci cs = Ok q /\
        qround q = steps_of (floating i j s) (val j - val i) (val s)) /\
    ((val j <= val i)%Q -> exists q, step_quot ci cj cs = Ok q /\
        qround q = steps_of (floating i j s) (val i - val j) (val s)).
Proof.
  intros i j s Ti Tj Ts F S.
  assert (KFcase : forall ci cj cs, to_double ci = val i -> to_double cj = val j -> to_double cs = val s ->
    floating i j s = true -> 
    (exists x, ci = SF x) -> (exists x, cj = SF x) -> (exists x, cs = SF x) ->
    (to_double ci == val i)%Q /\ (to_double cj == val j)%Q /\
    ((val i <= val j)%Q -> exists q, step_quot cj ci cs = Ok q /\
        qround q = steps_of (floating i j s) (val j - val i) (val s)) /\
    ((val j <= val i)%Q -> exists q, step_quot ci cj cs = Ok q /\
        qround q = steps_of (floating i j s) (val i - val j) (val s))).
  { intros ci cj cs A B C FL [x X] [y Y] [z Z]. subst. cbn [to_double] in *. subst x y z. rewrite FL.
    split; [reflexivity|]. split; [reflexivity|].
    split; intros _; eexists; (split; [reflexivity|]); reflexivity. }
  assert (QZ : forall a b t, (0 <= a - b)%Z -> (0 < t)%Z ->
     qround (inject_Z ((a - b) / t)) = steps_of false (inject_Z a - inject_Z b) (inject_Z t)).
  { intros a b t H T. rewrite qround_Z by (apply Z.div_pos; lia).
    unfold steps_of. rewrite <- (floor_div (a - b) t T). apply Qfloor_comp. now rewrite inj_sub. }
  assert (KIcase : forall x y z, (Z.abs (y - x) < two63)%Z -> (0 < z)%Z ->
    ((inject_Z x <= inject_Z y)%Q -> exists q, step_quot (SI y) (SI x) (SI z) = Ok q /\
        qround q = steps_of false (inject_Z y - inject_Z x) (inject_Z z)) /\
    ((inject_Z y <= inject_Z x)%Q -> exists q, step_quot (SI x) (SI y) (SI z) = Ok q /\
        qround q = steps_of false (inject_Z x - inject_Z y) (inject_Z z))).
  { intros x y z A Z0. split; intro L; apply inj_le_inv in L; unfold step_quot; rewrite signed_ok by lia;
      cbn [obind]; eexists; (split; [reflexivity|]); rewrite Z.quot_div_nonneg by lia; apply QZ; lia. }
  assert (KUcase : forall x y z, (0 <= x < two64)%Z -> (0 <= y < two64)%Z -> (0 < z)%Z ->
    ((inject_Z x <= inject_Z y)%Q -> exists q, step_quot (SU y) (SU x) (SU z) = Ok q /\
        qround q = steps_of false (inject_Z y - inject_Z x) (inject_Z z)) /\
    ((inject_Z y <= inject_Z x)%Q -> exists q, step_quot (SU x) (SU y) (SU z) = Ok q /\
        qround q = steps_of false (inject_Z x - inject_Z y) (inject_Z z))).
  { intros x y z A B Z0. split; intro L; apply inj_le_inv in L; unfold step_quot; rewrite wrap_id by lia;
      eexists; (split; [reflexivity|]); apply QZ; lia. }
  assert (W63 : (two63 < two64)%Z) by reflexivity.
  destruct i as [i|i|i], j as [j|j|j], s as [s|s|s];
    cbn [kind_of common conv];
    try (eexists _, _, _; do 3 (split; [reflexivity|]); apply KFcase; 
         [reflexivity|reflexivity|reflexivity|reflexivity|eexists; reflexivity..]);
    cbn [typed step_fits kind_of val] in *; change 0%Q with (inject_Z 0) in S; apply inj_lt_inv in S;
    try (destruct F as [F F']; try specialize (F' eq_refl));
    eexists _, _, _; do 3 (split; [reflexivity|]); rewrite ?wrap_id by lia; cbn [to_double];
    (split; [reflexivity|]); (split; [reflexivity|]);
    change (floating _ _ _) with false; (apply KIcase || apply KUcase); lia.
Qed.
