(* Proofs about the images of point spread functions. *)
From Coq Require Import Ascii String QArith Qabs Qround Lqa Setoid Lia.
From Verif Require Import Base ImageModel ImageSpec ImageProofs ImageProofs3 GenModel DrizModel DrizSpec DrizSpec2 DrizProofs12.
From Verif Require Import StrModel StrSpec StrProofs KeySpec RegridSpec TransfModel TransfSpec TransfProofs PsfmModel PsfmSpec.
From Verif Require HdrProofs KeyProofs ReduceModel ReduceProofs2 IndexModel IndexSpec IndexProofs OrderSpec SectModel QstackProofs DrizProofs13 TransfProperties.
Local Open Scope list_scope.
Local Open Scope nat_scope.
Notation length := List.length.

Lemma fields_code model ps : fields model ps ->
  exists ws, split model [","%char] = Ok ws /\ omapl (fun s => trim s blanks) ws = Ok ps.
Proof.
  intros (ws & C & F). destruct (split_ok model [","%char] ltac:(discriminate)) as (w' & E & C').
  assert (w' = ws) by (eapply cut_fun; eauto). subst w'. exists ws. split; [exact E|]. clear C C' E.
  induction F as [|s m ws ps H F IH]; [reflexivity|]. cbn [omapl]. rewrite (HdrProofs.trim_eq s m H). cbn [obind]. rewrite IH. reflexivity.
Qed.
Lemma fields_some model : exists p ps, fields model (p :: ps).
Proof.
  destruct (split_ok model [","%char] ltac:(discriminate)) as (ws & _ & C).
  assert (N : ws <> []) by (destruct C; discriminate).
  assert (T : forall l : list (list ascii), exists ps, Forall2 stripped l ps).
  { induction l as [|s l (ps & F)]; [exists []; constructor|]. destruct (KeyProofs.trim_stripped s) as (m & _ & S). exists (m :: ps). constructor; assumption. }
  destruct (T ws) as (ps & F). destruct F as [|s m ws ps H F]; [congruence|]. exists m, ps, (s :: ws). split; [exact C|constructor; assumption].
Qed.
Lemma same_ok a s : same a s = true <-> a = txt s.
Proof. unfold same. fold (txt s). destruct (list_eq_dec ascii_dec a (txt s)); split; congruence. Qed.
Lemma same_refl s : same (txt s) s = true. Proof. apply same_ok. reflexivity. Qed.
Lemma same_no a s : a <> txt s -> same a s = false.
Proof. intros N. destruct (same a s) eqn:E; [|reflexivity]. apply same_ok in E. contradiction. Qed.
Lemma arg_given num ps i s q : nth_error ps i = Some s -> given num s q -> arg num ps i = Ok q.
Proof.
  intros H [N E]. unfold arg, SectModel.at_checked. assert (L : i < length ps) by (apply nth_error_Some; congruence).
  rewrite (proj2 (Nat.ltb_lt _ _) L). cbn [check obind]. unfold oget. rewrite H. cbn [obind]. destruct s; [congruence|]. rewrite E. reflexivity.
Qed.

Lemma generate_ok n m e (f : nat -> nat -> option Q) : fits n m -> (forall x y, e x y = Ok (f x y)) ->
  exists r, generate_img n m e = Ok r /\ painted n m r (fun x y q => q = f (Z.to_nat x) (Z.to_nat y)).
Proof.
  intros F H. unfold generate_img. destruct (filled_any (Some 0%Q) n m F) as (r0 & -> & L). cbn [obind].
  destruct (each_ok n m e (pix r0) (fun y x q => q = f y x) L) as (r & E & S & P).
  - intros y x _ _. exists (f y x). split; [apply H|reflexivity].
  - exists r. split; [exact E|]. split; [exact S|]. intros x y Hx Hy.
    destruct (P (Z.to_nat x) (Z.to_nat y) ltac:(lia) ltac:(lia)) as (q & A & B). rewrite !Z2Nat.id in A by lia. exists q. split; assumption.
Qed.
Lemma painted_imp n m r (P P' : Z -> Z -> option Q -> Prop) : (forall x y q, (0 <= x)%Z -> (0 <= y)%Z -> P x y q -> P' x y q) -> painted n m r P -> painted n m r P'.
Proof.
  intros H [S K]. split; [exact S|]. intros x y Hx Hy. destruct (K x y Hx Hy) as (q & A & B). exists q. split; [exact A|]. apply H; [lia|lia|exact B].
Qed.

Local Open Scope Q_scope.
Lemma r2_dist x0 y0 x y : (0 <= x)%Z -> (0 <= y)%Z -> r2 x0 y0 (Z.to_nat x) (Z.to_nat y) == dist2 x0 y0 x y.
Proof. intros X Y. unfold r2, dist2, qn. rewrite !Z2Nat.id by assumption. cbn [Qpower Qpower_positive pow_pos]. ring. Qed.
Lemma bell_some expq u u' w : u == u' -> ~ w == 0 -> exists e, bell expq u w = Some e /\ bell_of expq u' w e.
Proof.
  intros E W. unfold bell. destruct (Qeq_bool w 0) eqn:B; [apply Qeq_bool_iff in B; contradiction|]. eexists. split; [reflexivity|].
  exists (- u / (2 * (w * w))). split; [|reflexivity]. rewrite <- E. cbn [Qpower Qpower_positive pow_pos]. field. exact W.
Qed.
Lemma bell_zero expq u w : w == 0 -> bell expq u w = if Qeq_bool u 0 then None else Some 0.
Proof. intros W. unfold bell. rewrite (proj2 (Qeq_bool_iff w 0) W). reflexivity. Qed.
Local Open Scope nat_scope.

(* --- the largest pixel --- *)
Lemma greater_order : OrderSpec.weak_order greater.
Proof.
  split.
  - intros [x|] [y|]; cbn; try congruence. intros H. apply negb_true_iff in H. apply negb_false_iff, Qle_bool_iff.
    destruct (Qlt_le_dec y x) as [L|L]; [apply Qlt_le_weak, L|]. apply Qle_bool_iff in L. congruence.
  - intros [x|] [y|] [z|]; cbn; try congruence; try tauto. intros H. apply negb_true_iff in H. rewrite !negb_true_iff.
    destruct (Qle_bool x y) eqn:A; [|tauto]. destruct (Qle_bool y z) eqn:B; [|tauto]. apply Qle_bool_iff in A, B.
    pose proof (Qle_trans _ _ _ A B) as C. apply Qle_bool_iff in C. congruence.
Qed.
Lemma not_greater a b : greater (Some b) (Some a) = false -> (b <= a)%Q.
Proof. cbn. intros H. apply negb_false_iff, Qle_bool_iff in H. exact H. Qed.
Lemma is_greater a b : greater (Some a) (Some b) = true -> (b < a)%Q.
Proof. cbn. intros H. apply negb_true_iff in H. destruct (Qlt_le_dec b a) as [L|L]; [exact L|]. apply Qle_bool_iff in L. congruence. Qed.

Lemma peak_code t : wf t -> all_finite t -> 1 <= nr t -> 1 <= nc t ->
  exists k a b, omap fst (ReduceModel.min_ greater (pix t)) = Ok k /\ IndexModel.mult_ids [nr t; nc t] k = Ok [a; b] /\
    a < nr t /\ b < nc t /\ peak t (Z.of_nat a) (Z.of_nat b).
Proof.
  intros W Fi N1 N2. assert (L : length (pix t) = nr t * nc t) by exact W.
  destruct (ReduceProofs2.min_ok greater greater_order (pix t)) as (k & x & E & X & M).
  { intros Z. rewrite Z in L. cbn in L. nia. }
  assert (K : k < nr t * nc t) by (rewrite <- L; apply nth_error_Some; congruence).
  destruct (IndexProofs.mult_ids_spec [nr t; nc t] k) as (ids & Ei & R & V).
  { repeat constructor; lia. }
  inversion R as [|? a ? l A R']; subst. inversion R' as [|? b ? l' B R'']; subst. inversion R''; subst.
  cbn [IndexSpec.row_major IndexSpec.horner] in V. unfold IndexSpec.row_major in V. cbn [IndexSpec.horner] in V.
  unfold nprod in V. cbn [fold_right] in V. rewrite Nat.mod_small in V by lia. cbn [Nat.mul Nat.add] in V.
  assert (V' : a * nc t + b = k) by lia.
  exists k, a, b. rewrite E. split; [reflexivity|]. split; [exact Ei|]. split; [exact A|]. split; [exact B|].
  destruct (Fi (Z.of_nat a) (Z.of_nat b)) as (v & Pv); [split; lia|]. exists v. split; [exact Pv|].
  assert (Ex : x = Some v).
  { rewrite px_in in Pv by assumption. rewrite V' in Pv. congruence. } subst x.
  intros i j w P. apply px_inv in P. destruct P as (I & J & P). destruct (M _ _ P) as [M1 M2]. split.
  - apply not_greater. exact M1.
  - intros Or. apply is_greater, M2. rewrite <- V'.
    destruct Or as [O|[O O']]; [|subst; rewrite Nat2Z.id; lia].
    assert (Z.to_nat i < a) by lia. assert (Z.to_nat j < nc t) by lia. nia.
Qed.

(* --- the half size --- *)
Lemma at2_ok t x y : (0 <= x < Z.of_nat (nr t))%Z -> (0 <= y < Z.of_nat (nc t))%Z -> wf t ->
  exists p, at2 t x y = Ok p /\ px t x y = Some p.
Proof.
  intros X Y W. unfold at2. destruct (px_some t x y W X Y) as (p & P). exists p. split; [|exact P].
  apply px_inv in P. destruct P as (_ & _ & P).
  replace ((0 <=? x) && (x <? Z.of_nat (nr t)) && (0 <=? y) && (y <? Z.of_nat (nc t)))%Z with true.
  - cbn [check obind]. unfold oget. rewrite P. reflexivity.
  - symmetry. rewrite !andb_true_iff, !Z.leb_le, !Z.ltb_lt. lia.
Qed.
Lemma zero_iff t x y p : px t x y = Some p -> (is_zero p = true <-> zero_at t x y).
Proof.
  intros P. unfold zero_at. rewrite P. destruct p as [v|]; cbn.
  - rewrite Qeq_bool_iff. split; [intros H; exists v; auto|intros (w & E & H); injection E as <-; exact H].
  - split; [discriminate|intros (w & E & _); discriminate].
Qed.
Lemma half_ok t a b e : wf t -> (e <= a)%Z -> (e <= b)%Z -> (a + e < Z.of_nat (nr t))%Z -> (b + e < Z.of_nat (nc t))%Z ->
  forall n s, 1 <= s -> (Z.of_nat s + Z.of_nat n = e + 1)%Z -> (forall k, (1 <= k < Z.of_nat s)%Z -> ~ cross_zero t a b k) ->
  exists h, half t a b (seq s n) = Ok h /\
    ((1 <= h /\ (Z.of_nat h <= e)%Z /\ cross_zero t a b (Z.of_nat h) /\ forall k, (1 <= k < Z.of_nat h)%Z -> ~ cross_zero t a b k) \/
     (h = 0 /\ forall k, (1 <= k <= e)%Z -> ~ cross_zero t a b k)).
Proof.
  intros W A B A' B'. induction n as [|n IH]; intros s Ps E N; cbn [seq half].
  - exists 0. split; [reflexivity|]. right. split; [reflexivity|]. intros k K. apply N. lia.
  - destruct (at2_ok t (a - Z.of_nat s) b ltac:(lia) ltac:(lia) W) as (p & -> & P). cbn [obind].
    destruct (at2_ok t (a + Z.of_nat s) b ltac:(lia) ltac:(lia) W) as (q & -> & Q). cbn [obind].
    destruct (at2_ok t a (b - Z.of_nat s) ltac:(lia) ltac:(lia) W) as (r & -> & R). cbn [obind].
    destruct (at2_ok t a (b + Z.of_nat s) ltac:(lia) ltac:(lia) W) as (u & -> & U). cbn [obind].
    assert (C : is_zero p && is_zero q && is_zero r && is_zero u = true <-> cross_zero t a b (Z.of_nat s)).
    { rewrite !andb_true_iff, (zero_iff _ _ _ _ P), (zero_iff _ _ _ _ Q), (zero_iff _ _ _ _ R), (zero_iff _ _ _ _ U). unfold cross_zero. tauto. }
    destruct (is_zero p && is_zero q && is_zero r && is_zero u) eqn:Z.
    + exists s. split; [reflexivity|]. left. repeat split; try lia; try (apply C; reflexivity). exact N.
    + destruct (IH (S s)) as (h & Eh & H); [lia|lia| |exists h; split; assumption].
      intros k K. destruct (Z.eq_dec k (Z.of_nat s)) as [->|]; [intros X; apply C in X; discriminate|apply N; lia].
Qed.

(* --- the model read from a file --- *)
Lemma cell_shift u i k : cell_of u i <-> cell_of (u + inject_Z k)%Q (i + k).
Proof. unfold cell_of. rewrite inject_Z_plus. split; intros [A B]; split; lra. Qed.
Lemma cell_comp u v i : (u == v)%Q -> cell_of u i -> cell_of v i.
Proof. unfold cell_of. intros E. rewrite E. tauto. Qed.

Definition calm (x : Q) : Prop := (- inject_Z (2 ^ 60) <= x /\ x <= inject_Z (2 ^ 60))%Q.
Lemma calm_round x : calm x -> (- 2 ^ 60 - 1 <= qround x <= 2 ^ 60 + 1)%Z.
Proof.
  intros [A B]. destruct (QstackProofs.qround_bounds x) as ((L & U) & _). split.
  - rewrite Zle_Qle. unfold Z.sub. rewrite inject_Z_plus, inject_Z_opp. change (inject_Z (- (1))) with (-1)%Q. lra.
  - rewrite Zle_Qle. rewrite inject_Z_plus. change (inject_Z 1) with 1%Q. lra.
Qed.

Lemma fits_small n m : 1 <= n -> 1 <= m -> fits n m -> (Z.of_nat n <= 2 ^ 60 /\ Z.of_nat m <= 2 ^ 60)%Z.
Proof. intros N M (_ & _ & F). change (2 ^ 60)%Z with 1152921504606846976%Z. nia. Qed.

Lemma file_ok read n m x0 y0 name t : read name = Ok t -> wf t -> all_finite t -> 1 <= nr t -> 1 <= nc t ->
  fits (nr t) (nc t) -> fits n m -> calm x0 -> calm y0 ->
  exists r a b h, file_psf read n m x0 y0 name = Ok r /\ peak t a b /\ kept t a b h /\
    painted n m r (fun x y q => stamp t a b h (inject_Z x - x0)%Q (inject_Z y - y0)%Q q).
Proof.
  intros Rd W Fi N1 N2 F F' Cx Cy. unfold file_psf. rewrite Rd. cbn [obind].
  destruct (peak_code t W Fi N1 N2) as (k & a & b & -> & E & A & B & P). cbn [obind]. rewrite E. cbn [obind oget nth_error].
  set (e := Nat.min (Nat.min a (nr t - 1 - a)) (Nat.min b (nc t - 1 - b))).
  assert (Rm : room t (Z.of_nat a) (Z.of_nat b) (Z.of_nat e)) by (unfold room; lia).
  destruct (half_ok t (Z.of_nat a) (Z.of_nat b) (Z.of_nat e) W ltac:(lia) ltac:(lia) ltac:(lia) ltac:(lia) e 1 ltac:(lia) ltac:(lia)) as (h0 & Eh & Hh).
  { intros k' K. lia. }
  rewrite Eh. cbn [obind].
  set (hn := if h0 =? 0 then e else h0).
  assert (Kp : kept t (Z.of_nat a) (Z.of_nat b) (Z.of_nat hn) /\ hn <= e).
  { subst hn. destruct Hh as [(H1 & H2 & H3 & H4)|(H1 & H2)].
    - destruct (Nat.eqb_spec h0 0); [lia|]. split; [|lia]. exists (Z.of_nat e). split; [exact Rm|]. left. split; [lia|]. split; assumption.
    - subst h0. cbn. split; [|lia]. exists (Z.of_nat e). split; [exact Rm|]. right. split; [reflexivity|exact H2]. }
  destruct Kp as [Kp Le]. set (h := Z.of_nat hn) in *. clearbody hn. clear Eh Hh.
  set (za := Z.of_nat a) in *. set (zb := Z.of_nat b) in *.
  assert (H0 : (0 <= h)%Z) by lia.
  assert (Bd : (h <= za /\ h <= zb /\ za + h < Z.of_nat (nr t) /\ zb + h < Z.of_nat (nc t))%Z) by (unfold room in Rm; lia).
  destruct (fits_small _ _ N1 N2 F) as [S1 S2]. change (2 ^ 60)%Z with 1152921504606846976%Z in S1, S2.
  assert (Sq : ((2 * h + 1) * (2 * h + 1) <= 1152921504606846975)%Z).
  { destruct F as (_ & _ & F). nia. }
  assert (T63 : two63 = 9223372036854775808%Z) by reflexivity. assert (T64 : two64 = 18446744073709551616%Z) by reflexivity.
  destruct (subregion_spec t (za - h) (zb - h) (za + h) (zb + h) (Some 0%Q) W) as (c & -> & Sc); try lia.
  { destruct F as (_ & _ & F). lia. }
  cbn [obind]. destruct Sc as (C1 & C2 & C3 & C4).
  replace (Z.to_nat (za + h - (za - h) + 1)) with (Z.to_nat (2 * h + 1)) in C1, C4 by lia.
  replace (Z.to_nat (zb + h - (zb - h) + 1)) with (Z.to_nat (2 * h + 1)) in C2, C4 by lia.
  pose proof (calm_round x0 Cx) as Rx. pose proof (calm_round y0 Cy) as Ry.
  change (2 ^ 60)%Z with 1152921504606846976%Z in Rx, Ry.
  destruct (QstackProofs.qround_bounds x0) as ((Lx & Ux) & _). destruct (QstackProofs.qround_bounds y0) as ((Ly & Uy) & _).
  set (ix := qround x0) in *. set (iy := qround y0) in *.
  rewrite (signed64_id ix) by lia. cbn [obind]. rewrite (signed64_id iy) by lia. cbn [obind].
  assert (Cf : all_finite c).
  { intros i j [J I]. rewrite C1 in I. rewrite C2 in J. rewrite C4 by lia. unfold px_or.
    destruct (Fi (i + (za - h)) (j + (zb - h)))%Z as (v & V); [split; lia|]. rewrite V. exists v. reflexivity. }
  assert (Fc : fits (nr c) (nc c)).
  { rewrite C1, C2. split; [lia|]. split; [lia|]. rewrite !Z2Nat.id by lia. exact Sq. }
  assert (Re : reachable c (slid (x0 - inject_Z ix) (y0 - inject_Z iy))).
  { intros y x [X Y]. rewrite C1 in Y. rewrite C2 in X. unfold slid, moderate. cbn [fst snd].
    assert (By : (0 <= inject_Z y /\ inject_Z y <= inject_Z (2 ^ 61))%Q) by (split; [change 0%Q with (inject_Z 0)|]; rewrite <- Zle_Qle; change (2 ^ 61)%Z with 2305843009213693952%Z; lia).
    assert (Bx : (0 <= inject_Z x /\ inject_Z x <= inject_Z (2 ^ 61))%Q) by (split; [change 0%Q with (inject_Z 0)|]; rewrite <- Zle_Qle; change (2 ^ 61)%Z with 2305843009213693952%Z; lia).
    change (inject_Z (2 ^ 61)) with (2305843009213693952#1)%Q in *. change (inject_Z (2 ^ 62)) with (4611686018427387904#1)%Q. repeat split; lra. }
  destruct (TransfProperties.C97_translate c _ _ (Some 0%Q) C3 Fc Re) as (s & -> & Ms). cbn [obind].
  rewrite filled_ok by exact F'. cbn [obind pix].
  rewrite (signed64_id (ix - h)) by lia. cbn [obind]. rewrite (signed64_id (iy - h)) by lia. cbn [obind].
  rewrite (signed64_id (ix + h)) by lia. cbn [obind]. rewrite (signed64_id (iy + h)) by lia. cbn [obind].
  rewrite subregion_ids_spec by (destruct F' as (_ & _ & F'); lia || (left; replace ((ix + h - (ix - h) + 1) * (iy + h - (iy - h) + 1))%Z with ((2 * h + 1) * (2 * h + 1))%Z by ring; lia)).
  cbn [obind]. destruct Ms as ((M1 & M2 & M3) & Ms).
  destruct (DrizProofs13.copy_back s (Some 0%Q) n m (ix - h) (iy - h) M3) as (d & Ed & Sd).
  rewrite M1, M2, C1, C2 in Ed.
  replace (ix - h + Z.of_nat (Z.to_nat (2 * h + 1)) - 1)%Z with (ix + h)%Z in Ed by lia.
  replace (iy - h + Z.of_nat (Z.to_nat (2 * h + 1)) - 1)%Z with (iy + h)%Z in Ed by lia.
  replace (iy + h - (iy - h) + 1)%Z with (Z.of_nat (Z.to_nat (2 * h + 1))) by lia.
  rewrite Ed. cbn [obind]. exists (Img n m d), za, zb, h. split; [reflexivity|]. split; [exact P|]. split; [exact Kp|].
  destruct Sd as (_ & _ & D3 & D4). split; [split; [reflexivity|split; [reflexivity|exact D3]]|].
  intros x y X Y. specialize (D4 x y X Y). unfold px_or in D4.
  set (u := (inject_Z x - x0)%Q). set (v := (inject_Z y - y0)%Q).
  assert (Cl : forall q : Q, cell_of q (Qfloor q)).
  { intros q. split; [apply Qfloor_le|]. change 1%Q with (inject_Z 1). rewrite <- inject_Z_plus. apply Qlt_floor. }
  destruct (Z_le_dec 0 (x - (ix - h))) as [A1|A1]; [destruct (Z_lt_dec (x - (ix - h)) (2 * h + 1)) as [A2|A2]|];
  [destruct (Z_le_dec 0 (y - (iy - h))) as [B1|B1]; [destruct (Z_lt_dec (y - (iy - h)) (2 * h + 1)) as [B2|B2]|]| |].
  - destruct (Ms (x - (ix - h))%Z (y - (iy - h))%Z) as (p & q & Ep & V & Eq); [split; rewrite ?C1, ?C2; lia|].
    rewrite Eq in D4. exists q. split; [exact D4|]. cbn [value_at] in V. destruct V as (i & j & I & J & V).
    destruct Ep as [Ep1 Ep2]. unfold slid in Ep1, Ep2. cbn [fst snd] in Ep1, Ep2.
    assert (Fu : (fst p == u + inject_Z h)%Q).
    { rewrite Ep1. unfold u. unfold Z.sub. rewrite !inject_Z_plus, !inject_Z_opp, !inject_Z_plus, inject_Z_opp. ring. }
    assert (Fv : (snd p == v + inject_Z h)%Q).
    { rewrite Ep2. unfold v. unfold Z.sub. rewrite !inject_Z_plus, !inject_Z_opp, !inject_Z_plus, inject_Z_opp. ring. }
    exists (i - h)%Z, (j - h)%Z.
    split. { apply (cell_shift _ _ h). replace (i - h + h)%Z with i by lia. eapply cell_comp; [exact Fu|exact I]. }
    split. { apply (cell_shift _ _ h). replace (j - h + h)%Z with j by lia. eapply cell_comp; [exact Fv|exact J]. }
    rewrite C1, C2 in V. cbv zeta in V.
    destruct V as [(Am & p00 & p01 & p10 & p11 & r & Q1 & Q2 & Q3 & Q4 & -> & Er)|[(Am & Bad & _)|(Am & ->)]].
    + left. split; [lia|]. split; [lia|]. exists p00, p01, p10, p11, r.
      assert (Rw : forall i j w, (0 <= i < 2 * h + 1)%Z -> (0 <= j < 2 * h + 1)%Z -> px c i j = Some w -> px t (za + (i - h)) (zb + (j - h)) = Some w).
      { intros i' j' w I' J' H. rewrite C4 in H by lia. unfold px_or in H.
        replace (za + (i' - h))%Z with (i' + (za - h))%Z by lia. replace (zb + (j' - h))%Z with (j' + (zb - h))%Z by lia.
        destruct (px_some t (i' + (za - h)) (j' + (zb - h)) W) as (w' & Hw); [lia|lia|]. rewrite Hw in H. rewrite Hw. exact H. }
      apply Rw in Q1, Q2, Q3, Q4; try lia.
      split; [exact Q1|]. split; [replace (zb + (j - h) + 1)%Z with (zb + (j + 1 - h))%Z by lia; exact Q2|].
      split; [replace (za + (i - h) + 1)%Z with (za + (i + 1 - h))%Z by lia; exact Q3|].
      split; [replace (za + (i - h) + 1)%Z with (za + (i + 1 - h))%Z by lia; replace (zb + (j - h) + 1)%Z with (zb + (j + 1 - h))%Z by lia; exact Q4|].
      split; [reflexivity|]. rewrite Er. unfold mix. rewrite Fu, Fv. unfold Z.sub. rewrite !inject_Z_plus, inject_Z_opp. ring.
    + exfalso. destruct Bad as (i' & j' & I' & J' & Bad). destruct (Cf i' j') as (w & Ew); [split; rewrite ?C1, ?C2; lia|]. congruence.
    + right. split; [lia|reflexivity].
  - exists (Some 0%Q). split; [rewrite D4, px_out; [reflexivity|rewrite M1, M2, C1, C2; lia]|].
    exists (Qfloor u), (Qfloor v). split; [apply Cl|]. split; [apply Cl|]. right. split; [|reflexivity]. intros [_ K]. pose proof (Cl v) as [V1 V2].
    assert (inject_Z (iy + h + 1) <= inject_Z y)%Q by (rewrite <- Zle_Qle; lia). rewrite !inject_Z_plus in H. change (inject_Z 1) with 1%Q in H.
    assert (inject_Z (Qfloor v) + 1 <= inject_Z h)%Q by (change 1%Q with (inject_Z 1); rewrite <- inject_Z_plus, <- Zle_Qle; lia). unfold v in *. lra.
  - exists (Some 0%Q). split; [rewrite D4, px_out; [reflexivity|rewrite M1, M2, C1, C2; lia]|].
    exists (Qfloor u), (Qfloor v). split; [apply Cl|]. split; [apply Cl|]. right. split; [|reflexivity]. intros [_ K]. pose proof (Cl v) as [V1 V2].
    assert (inject_Z (y + 1) <= inject_Z (iy - h))%Q by (rewrite <- Zle_Qle; lia). unfold Z.sub in H. rewrite !inject_Z_plus, inject_Z_opp in H. change (inject_Z 1) with 1%Q in H.
    assert (inject_Z (- h) <= inject_Z (Qfloor v))%Q by (rewrite <- Zle_Qle; lia). rewrite inject_Z_opp in H1. unfold v in *. lra.
  - exists (Some 0%Q). split; [rewrite D4, px_out; [reflexivity|rewrite M1, M2, C1, C2; lia]|].
    exists (Qfloor u), (Qfloor v). split; [apply Cl|]. split; [apply Cl|]. right. split; [|reflexivity]. intros [K _]. pose proof (Cl u) as [V1 V2].
    assert (inject_Z (ix + h + 1) <= inject_Z x)%Q by (rewrite <- Zle_Qle; lia). rewrite !inject_Z_plus in H. change (inject_Z 1) with 1%Q in H.
    assert (inject_Z (Qfloor u) + 1 <= inject_Z h)%Q by (change 1%Q with (inject_Z 1); rewrite <- inject_Z_plus, <- Zle_Qle; lia). unfold u in *. lra.
  - exists (Some 0%Q). split; [rewrite D4, px_out; [reflexivity|rewrite M1, M2, C1, C2; lia]|].
    exists (Qfloor u), (Qfloor v). split; [apply Cl|]. split; [apply Cl|]. right. split; [|reflexivity]. intros [K _]. pose proof (Cl u) as [V1 V2].
    assert (inject_Z (x + 1) <= inject_Z (ix - h))%Q by (rewrite <- Zle_Qle; lia). unfold Z.sub in H. rewrite !inject_Z_plus, inject_Z_opp in H. change (inject_Z 1) with 1%Q in H.
    assert (inject_Z (- h) <= inject_Z (Qfloor u))%Q by (rewrite <- Zle_Qle; lia). rewrite inject_Z_opp in H1. unfold u in *. lra.
Qed.
