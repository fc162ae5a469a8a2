(* Lemmas on masks of circles and radial profiles. *)
From Coq Require Import QArith Qround Lqa ZifyBool ZifyNat.
From Verif Require Import Base IndexModel VecModel VecProofs2 ImageModel ImageSpec ImageProofs HdistProofs CmaskModel CmaskSpec CmaskProofs.
Local Open Scope nat_scope.

Lemma corners_le r x y i j : corners_in r x y i j <= 4.
Proof. unfold corners_in, corners_of. cbn [filter]. repeat match goal with |- context [if ?b then _ else _] => destruct b end; cbn [length]; lia. Qed.
Lemma most_in q n : n <= 4 -> (q == inject_Z (Z.of_nat n) / 4)%Q -> (qlt half q = true <-> 3 <= n).
Proof.
  intros Hn E. rewrite qlt_iff. unfold half. rewrite E.
  destruct n as [|[|[|[|[|n]]]]]; cbn [Z.of_nat Pos.of_succ_nat Pos.succ]; (split; [intros K; try lia; vm_compute in K; discriminate|intros K; try lia; reflexivity]).
Qed.
Lemma circle_ok px py rad m m0 : circular_mask (nr m) (nc m) rad py px = Ok m0 ->
  image_is Qeq (nr m) (nc m) m0 (fun i j => (inject_Z (Z.of_nat (corners_in rad py px i j)) / 4)%Q) ->
  0 < nr m -> 0 < nc m -> length (pix m) = nr m * nc m ->
  exists m', mask_circle px py rad m = Ok m' /\ nr m' = nr m /\ nc m' = nc m /\ length (pix m') = length (pix m) /\
    forall i j b, i < nr m -> j < nc m -> nth_error (pix m) (i * nc m + j) = Some b ->
      exists b', nth_error (pix m') (i * nc m + j) = Some b' /\ (b' = true <-> b = true \/ 3 <= corners_in rad py px i j).
Proof.
  intros E (E0 & E1 & L & H) Hr Hc Hl. unfold mask_circle. replace (0 <? nr m * nc m) with true by nia. cbn [check obind]. rewrite E. cbn [obind].
  eexists. split; [reflexivity|]. cbn [nr nc pix]. do 2 (split; [reflexivity|]). split; [rewrite map_length, combine_length; lia|].
  intros i j b Hi Hj Eb. destruct (H i j Hi Hj) as (a & Ea & Ha).
  exists (b || qlt half a). split.
  - assert (C : nth_error (combine (pix m) (pix m0)) (i * nc m + j) = Some (b, a)) by (apply nth_error_combine; auto).
    rewrite nth_error_map, C. reflexivity.
  - rewrite Bool.orb_true_iff, (most_in _ _ (corners_le rad py px i j) Ha). reflexivity.
Qed.

(* sums *)
Lemma fold_plus l : forall a, (fold_left Qplus l a == a + fold_left Qplus l 0)%Q.
Proof.
  induction l as [|x l IH]; intros a; cbn [fold_left]; [ring|]. rewrite IH, (IH (0 + x)%Q). ring.
Qed.
Lemma fold_scale c (mask l : list Q) : length mask = length l -> (forall v, In v l -> (v == c)%Q) ->
  (fold_left Qplus (map (fun '(p, q) => (p * q)%Q) (combine mask l)) 0 == c * fold_left Qplus mask 0)%Q.
Proof.
  revert l. induction mask as [|p mask IH]; intros [|v l] E H; try discriminate; cbn [combine map fold_left]; [ring|].
  rewrite (fold_plus _ (0 + p * v)), (fold_plus _ (0 + p)). rewrite IH; [|cbn [length] in E; lia|intros w I; apply H; right; exact I].
  rewrite (H v (or_introl eq_refl)). ring.
Qed.
Lemma mask_any d0 d1 r x y : fits d0 d1 -> 0 < d0 -> 0 < d1 -> (0 <= r)%Q -> (x - r < inject_Z (2 ^ 64))%Q -> (y - r < inject_Z (2 ^ 64))%Q ->
  exists m, circular_mask d0 d1 r x y = Ok m /\ nr m = d0 /\ nc m = d1 /\ length (pix m) = d0 * d1.
Proof.
  intros Hf H0 H1 Hr Bx By. destruct (Qlt_le_dec 0 (x + r)) as [Hx|Hx]; [destruct (Qlt_le_dec 0 (y + r)) as [Hy|Hy]|].
  - destruct (mask_ok d0 d1 r x y) as (m & E & A & B & C & _); [assumption..|]. exists m. auto.
  - rewrite mask_empty by (auto; lra). eexists. split; [reflexivity|]. cbn [nr nc pix]. rewrite repeat_length. auto.
  - rewrite mask_empty by (auto; lra). eexists. split; [reflexivity|]. cbn [nr nc pix]. rewrite repeat_length. auto.
Qed.
Lemma nat_lt64 n : (Z.of_nat n < two64)%Z -> (inject_Z (Z.of_nat n) < inject_Z (2 ^ 64))%Q.
Proof. intros H. rewrite <- Zlt_Qlt. exact H. Qed.

Lemma omapl_all {A B} (f : A -> outcome B) (P : A -> B -> Prop) l : (forall a, In a l -> exists b, f a = Ok b /\ P a b) ->
  exists r, omapl f l = Ok r /\ Forall2 P l r.
Proof.
  induction l as [|a l IH]; intros H; [exists []; split; [reflexivity|constructor]|].
  destruct (H a (or_introl eq_refl)) as (b & E & Hb). destruct IH as (r & Er & Hr); [intros; apply H; right; assumption|].
  exists (b :: r). cbn [omapl]. rewrite E. cbn [obind]. rewrite Er. cbn [obind]. split; [reflexivity|constructor; assumption].
Qed.
Lemma profile_ok v npix (P : option Q -> Prop) : fits (nr v) (nc v) -> 0 < nr v -> 0 < nc v -> length (pix v) = nr v * nc v ->
  0 < npix -> (Z.of_nat npix < two64)%Z ->
  (forall mask, length mask = length (pix v) -> P (ratio (fold_left Qplus (map (fun '(p, q) => (p * q)%Q) (combine mask (pix v))) 0%Q) (fold_left Qplus mask 0%Q))) ->
  exists c r, radial_profile v npix = Ok (Some c :: r) /\ length r + 1 = npix /\ nth_error (pix v) (nr v / 2 * nc v + nc v / 2) = Some c /\ Forall P r.
Proof.
  intros Hf H0 H1 Hl Hn Bn HP. unfold radial_profile. cbv zeta.
  assert (Hx : nr v / 2 < nr v) by (apply Nat.div_lt; lia). assert (Hy : nc v / 2 < nc v) by (apply Nat.div_lt; lia).
  set (hsx := nr v / 2) in *. set (hsy := nc v / 2) in *. clearbody hsx hsy.
  replace (0 <? npix) with true by lia. replace (hsx <? nr v) with true by lia. replace (hsy <? nc v) with true by lia. cbn [check obind].
  unfold pget. destruct (nth_error (pix v) (hsx * nc v + hsy)) as [c|] eqn:Ec.
  2: { apply nth_error_None in Ec. rewrite Hl in Ec. pose proof (pos_lt (nr v) (nc v) hsx hsy). lia. }
  rewrite (proj2 (oget_Ok _ _ _ _) Ec). cbn [obind].
  pose proof Hf as (F1 & F2 & _).
  assert (A0 : (0 <= inject_Z (Z.of_nat hsx))%Q) by (apply (zq 0); lia).
  match goal with |- context [omapl ?f ?l] => destruct (omapl_all f (fun _ => P) l) as (r & E & F) end.
  { intros i I. apply in_seq in I.
    assert (B1 : (inject_Z (Z.of_nat hsy) - inject_Z (Z.of_nat hsx) < inject_Z (2 ^ 64))%Q).
    { assert (K := nat_lt64 hsy ltac:(lia)). lra. }
    destruct (mask_any (nr v) (nc v) (inject_Z (Z.of_nat hsx)) (inject_Z (Z.of_nat hsy)) (inject_Z (Z.of_nat i))) as (a & Ea & _ & _ & La); [assumption..| |].
    { assert (K := nat_lt64 i ltac:(lia)). lra. }
    destruct (mask_any (nr v) (nc v) (inject_Z (Z.of_nat hsx)) (inject_Z (Z.of_nat hsy)) (inject_Z (Z.of_nat i - 1))) as (b & Eb & _ & _ & Lb); [assumption..| |].
    { replace (Z.of_nat i - 1)%Z with (Z.of_nat (i - 1)) by lia. assert (K := nat_lt64 (i - 1) ltac:(lia)). lra. }
    rewrite Ea. cbn [obind]. rewrite Eb. cbn [obind]. eexists. split; [reflexivity|]. apply HP. rewrite map_length, combine_length. lia. }
  rewrite E. cbn [obind]. exists c, r. split; [reflexivity|].
  assert (L := F). clear - L Hn Ec.
  assert (G : length (seq 1 (npix - 1)) = length r /\ Forall P r). { clear Ec. induction L; [split; [reflexivity|constructor]|]. destruct IHL. cbn [length]. split; [lia|constructor; assumption]. }
  rewrite seq_length in G. split; [lia|]. split; [reflexivity|apply G].
Qed.

Lemma sym_bool a b c d : (a == b)%Q -> (c == d)%Q -> Qle_bool a c = Qle_bool b d.
Proof. intros E F. apply Bool.eq_true_iff_eq. rewrite !Qle_bool_iff, E, F. reflexivity. Qed.
Lemma symmetric_row d0 r y i j : i < d0 ->
  corners_in r ((inject_Z (Z.of_nat d0) - 1) / 2) y (d0 - 1 - i) j = corners_in r ((inject_Z (Z.of_nat d0) - 1) / 2) y i j.
Proof.
  intros Hi. unfold corners_in, corners_of. cbv zeta. cbn [filter fst snd].
  assert (E : (inject_Z (Z.of_nat (d0 - 1 - i)) == inject_Z (Z.of_nat d0) - 1 - inject_Z (Z.of_nat i))%Q).
  { replace (Z.of_nat (d0 - 1 - i)) with (Z.of_nat d0 + - (1) + - Z.of_nat i)%Z by lia. rewrite !inject_Z_plus, !inject_Z_opp. ring. }
  set (n := inject_Z (Z.of_nat d0)) in *. set (p := inject_Z (Z.of_nat (d0 - 1 - i))) in *. set (q := inject_Z (Z.of_nat i)) in *. set (t := inject_Z (Z.of_nat j)). clearbody n p q t.
  assert (S1 : forall b, ((p - (1 # 2) - (n - 1) / 2) * (p - (1 # 2) - (n - 1) / 2) + b == (q + (1 # 2) - (n - 1) / 2) * (q + (1 # 2) - (n - 1) / 2) + b)%Q) by (intros b; rewrite E; field).
  assert (S2 : forall b, ((p + (1 # 2) - (n - 1) / 2) * (p + (1 # 2) - (n - 1) / 2) + b == (q - (1 # 2) - (n - 1) / 2) * (q - (1 # 2) - (n - 1) / 2) + b)%Q) by (intros b; rewrite E; field).
  rewrite !(sym_bool _ _ _ _ (S1 _) (Qeq_refl (r * r))), !(sym_bool _ _ _ _ (S2 _) (Qeq_refl (r * r))).
  repeat match goal with |- context [Qle_bool ?a ?b] => destruct (Qle_bool a b) end; reflexivity.
Qed.
