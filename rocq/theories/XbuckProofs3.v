(* Lemmas on the bucket algorithm, part 3: the field of buckets, all sources. *)
From Coq Require Import ZifyBool ZifyNat Psatz.
From Verif Require Import Base IndexModel VecModel VecProofs ImageModel MatModel MatProofs XmatchModel XmatchSpec XmatchProofs XmatchProofs2 XmatchProofs3 XmatchProofs4 XbuckModel XbuckSpec XbuckProofs XbuckProofs2.
Local Open Scope nat_scope.

Lemma lmin_le l x : In x l -> (lmin l <= x)%Z.
Proof.
  unfold lmin. generalize (hd 0%Z l). intros h. induction l as [|a l IH]; intros []; cbn [fold_right]; [subst|specialize (IH H)]; lia.
Qed.
Lemma lmax_ge l x : In x l -> (x <= lmax l)%Z.
Proof.
  unfold lmax. generalize (hd 0%Z l). intros h. induction l as [|a l IH]; intros []; cbn [fold_right]; [subst|specialize (IH H)]; lia.
Qed.

Definition well (f : field) (ra de : list Z) : Prop := forall i, i < length ra ->
  let x := fst (bucket_of f ra de i) in let y := snd (bucket_of f ra de i) in
  x < f_nx f /\ y < f_ny f /\
  Z.of_nat x = ((nth i ra 0 - f_r0 f) / f_c f)%Z /\ Z.of_nat y = ((nth i de 0 - f_d0 f) / f_c f)%Z.

Lemma pos_in_field c m M x : (0 < c -> m <= x <= M ->
  0 <= (x - (m - c)) / c < (M + c - (m - c)) / c)%Z.
Proof.
  intros Hc H. assert (E : (M + c - (m - c) = (M - m + c) + 1 * c)%Z) by lia. rewrite E, Z.div_add by lia.
  assert (((x - (m - c)) / c <= (M - m + c) / c)%Z) by (apply Z.div_le_mono; lia).
  assert ((0 <= (x - (m - c)) / c)%Z) by (apply Z.div_pos; lia). lia.
Qed.

Lemma mk_field_ok sqrtf ra1 de1 ra2 de2 : sqrt_ok sqrtf -> catalogue ra1 de1 -> catalogue ra2 de2 -> extended ra2 -> extended de2 ->
  exists f, mk_field sqrtf ra1 de1 ra2 de2 = Ok f /\ (0 < f_c f)%Z /\ 2 <= f_nx f /\ 2 <= f_ny f /\ well f ra1 de1 /\ well f ra2 de2.
Proof.
  intros Hs (L1 & N1) (L2 & N2) (a & b & Ia & Ib & Hab) (a' & b' & Ia' & Ib' & Hab').
  unfold mk_field. cbv zeta.
  pose proof (lmin_le _ _ Ia). pose proof (lmax_ge _ _ Ib). pose proof (lmin_le _ _ Ia'). pose proof (lmax_ge _ _ Ib').
  assert (P : (0 < (lmax ra2 - lmin ra2) * (lmax de2 - lmin de2))%Z) by nia.
  destruct (Hs ((lmax ra2 - lmin ra2) * (lmax de2 - lmin de2))%Z ltac:(lia)) as (S1 & S2 & _).
  set (c := sqrtf _) in *. destruct (Z.leb_spec c 0); [assert (c = 0)%Z by lia; nia|].
  assert (D : forall m M, (m <= M)%Z -> 2 <= Z.to_nat ((M + c - (m - c)) / c)%Z).
  { intros m M HmM. assert (E : (M + c - (m - c) = (M - m) + 2 * c)%Z) by lia. rewrite E, Z.div_add by lia.
    assert (0 <= (M - m) / c)%Z by (apply Z.div_pos; lia). lia. }
  eexists. split; [reflexivity|]. cbn [f_c f_nx f_ny].
  split; [lia|]. split; [apply D; lia|]. split; [apply D; lia|].
  assert (W : forall ra de, length ra = length de ->
    (forall x, In x ra -> Z.min (lmin ra1) (lmin ra2) <= x <= Z.max (lmax ra1) (lmax ra2))%Z ->
    (forall x, In x de -> Z.min (lmin de1) (lmin de2) <= x <= Z.max (lmax de1) (lmax de2))%Z ->
    well (Field (Z.min (lmin ra1) (lmin ra2) - c) (Z.min (lmin de1) (lmin de2) - c) c
      (Z.to_nat ((Z.max (lmax ra1) (lmax ra2) + c - (Z.min (lmin ra1) (lmin ra2) - c)) / c))
      (Z.to_nat ((Z.max (lmax de1) (lmax de2) + c - (Z.min (lmin de1) (lmin de2) - c)) / c))) ra de).
  { intros ra de HL Hr Hd i Hi. cbv zeta. unfold bucket_of. cbn [fst snd f_nx f_ny f_r0 f_d0 f_c].
    pose proof (pos_in_field c _ _ _ ltac:(lia) (Hr _ (nth_In ra 0%Z Hi))).
    assert (Hi' : i < length de) by lia.
    pose proof (pos_in_field c _ _ _ ltac:(lia) (Hd _ (nth_In de 0%Z Hi'))). lia. }
  split; apply W; try assumption; intros x Hx; pose proof (lmin_le _ _ Hx); pose proof (lmax_ge _ _ Hx); lia.
Qed.
Lemma fill_ok f ra de : well f ra de -> fill f ra de = Ok tt.
Proof.
  intros H. unfold fill.
  match goal with |- ofold ?g _ _ = _ => destruct (ofold_seq_inv (fun _ _ => True) g (length ra) 0 tt I) as ([] & E & _) end; [|exact E].
  intros i [] Hi _. exists tt. split; [|exact I]. specialize (H i ltac:(lia)). cbv zeta in H.
  destruct (bucket_of f ra de i) as [x y]. cbn [fst snd] in H. replace ((x <? f_nx f) && (y <? f_ny f)) with true by lia. reflexivity.
Qed.
Lemma bucket_In f ra de x y j : In j (bucket f ra de x y) <->
  j < length ra /\ fst (bucket_of f ra de j) = x /\ snd (bucket_of f ra de j) = y.
Proof.
  unfold bucket. rewrite filter_In, in_seq. destruct (bucket_of f ra de j) as [x' y']. cbn [fst snd]. lia.
Qed.

Section All.
Variables (sqrtf : Z -> Z) (f : field) (ra1 de1 ra2 de2 : list Z) (nth_ : nat) (self : bool).
Hypothesis (Hs : sqrt_ok sqrtf) (Hc : (0 < f_c f)%Z) (Hnx : 2 <= f_nx f) (Hny : 2 <= f_ny f).
Hypothesis (W1 : well f ra1 de1) (W2 : well f ra2 de2) (Hn : 1 <= nth_).
Let n1 := length ra1.
Let n2 := length ra2.
Let M := Nat.max (f_nx f) (f_ny f).
Let dist := proxy ra1 de1 ra2 de2.
Let x0 i := fst (bucket_of f ra1 de1 i).
Let y0 i := snd (bucket_of f ra1 de1 i).
Let bx j := fst (bucket_of f ra2 de2 j).
Let by_ j := snd (bucket_of f ra2 de2 j).
Let cd i := cell_dist sqrtf f (nth i ra1 0%Z) (nth i de1 0%Z) (x0 i) (y0 i).

Definition found (i : nat) (col : list entry) : Prop := exists k, k < M /\
  inv dist nth_ n2 self i (seen f bx by_ (x0 i) (y0 i) (k + 1)) col /\
  (k + 1 = M \/ exists c, hd None col = Some c /\ (400 * fst c <= reached f (cd i) k * reached f (cd i) k)%Z).

Lemma search_all_ok : exists r C, search_all sqrtf f ra1 de1 ra2 de2 nth_ nth_ self = Ok r /\
  cols nth_ n1 (x_id r) (x_d r) C /\ forall i, i < n1 -> found i (C i).
Proof.
  unfold search_all. cbv zeta. fold n1.
  match goal with |- context [ofold ?g _ _] =>
    destruct (ofold_seq_inv (fun i r => exists C, st nth_ n1 n2 true r C (fun _ => None) /\
      (forall i', i' < i -> found i' (C i')) /\ (forall i', i <= i' -> C i' = repeat None nth_)) g n1 0 (empty_res nth_ n1 0 true)) as (r & E & C & S & F & _) end.
  - exists (fun _ => repeat None nth_). split; [exact (st_empty dist nth_ n1 n2 true Hn)|]. split; [lia|reflexivity].
  - intros i r Hi (C & S & F & G). destruct (bucket_of f ra1 de1 i) as [x y] eqn:Eb.
    assert (Ex : x0 i = x) by (unfold x0; rewrite Eb; reflexivity). assert (Ey : y0 i = y) by (unfold y0; rewrite Eb; reflexivity).
    destruct (search_ok f dist nth_ n1 n2 self (bucket f ra2 de2) bx by_) with
      (i := i) (x0 := x) (y0 := y) (cd := cell_dist sqrtf f (nth i ra1 0%Z) (nth i de1 0%Z) x y) (fuel := M) (d := 0) (r := r) (C := C)
      as (k & r' & C' & E & S1 & S2 & S3 & S4 & S5).
    + intros. apply bucket_In.
    + intros j Hj. specialize (W2 j Hj). cbv zeta in W2. unfold bx, by_. lia.
    + exact Hn.
    + lia.
    + fold M. lia.
    + unfold M. lia.
    + exact S.
    + rewrite G by lia. split; [apply repeat_length|]. split; [apply (padded_sorted [] nth_); constructor|].
      assert (Eh : hd None (repeat (@None (Z * nat)) nth_) = None) by (destruct nth_; reflexivity). rewrite Eh.
      split; [discriminate|]. intros c _ (k & Hk & _). lia.
    + exists r'. split; [exact E|]. exists C'. split; [exact S1|]. split.
      * intros i' Hi'. destruct (Nat.eq_dec i' i) as [->|Hne].
        -- exists k. unfold cd. rewrite Ex, Ey. auto.
        -- rewrite (S2 i' Hne). apply F. lia.
      * intros i' Hi'. rewrite (S2 i') by lia. apply G. lia.
  - exists r, C. split; [exact E|]. split; [exact (proj1 S)|]. exact F.
Qed.

Lemma cd_bounds i : i < n1 ->
  let A := (2 * (nth i ra1 0 - f_r0 f) - (2 * Z.of_nat (x0 i) + 1) * f_c f)%Z in
  let B := (2 * (nth i de1 0 - f_d0 f) - (2 * Z.of_nat (y0 i) + 1) * f_c f)%Z in
  (0 <= cd i)%Z /\ (100 * (A * A + B * B) <= 121 * (cd i * cd i))%Z /\ (11 * cd i <= 38 * f_c f)%Z.
Proof.
  intros Hi A B. specialize (W1 i Hi). cbv zeta in W1. fold (x0 i) (y0 i) in W1. destruct W1 as (_ & _ & E1 & E2).
  assert (HA : (- f_c f <= A <= f_c f)%Z).
  { pose proof (Z.div_mod (nth i ra1 0 - f_r0 f) (f_c f) ltac:(lia))%Z. pose proof (Z.mod_pos_bound (nth i ra1 0 - f_r0 f) (f_c f) Hc)%Z.
    rewrite <- E1 in H. unfold A. lia. }
  assert (HB : (- f_c f <= B <= f_c f)%Z).
  { pose proof (Z.div_mod (nth i de1 0 - f_d0 f) (f_c f) ltac:(lia))%Z. pose proof (Z.mod_pos_bound (nth i de1 0 - f_d0 f) (f_c f) Hc)%Z.
    rewrite <- E2 in H. unfold B. lia. }
  assert (HE : (0 <= A * A + B * B <= 2 * (f_c f * f_c f))%Z).
  { clear -HA HB. nia. }
  destruct (Hs (A * A + B * B)%Z (proj1 HE)) as (S1 & S2 & S3).
  change (sqrtf (A * A + B * B)%Z) with (cd i) in S1, S2, S3. split; [exact S1|]. split; [exact S2|].
  clearbody A B. revert S1 S3 HE Hc. generalize (cd i) (f_c f). clear. intros s c S1 [->|S3] HE Hc; [lia|].
  assert (100 * ((s - 1) * (s - 1)) <= 242 * (c * c))%Z by lia.
  assert (s - 1 <= 2 * c)%Z by nia. nia.
Qed.

Lemma seen_cover i j k : i < n1 -> j < n2 -> k < M -> (400 * ((nth j ra2 0 - nth i ra1 0) * (nth j ra2 0 - nth i ra1 0) +
    (nth j de2 0 - nth i de1 0) * (nth j de2 0 - nth i de1 0)) <= reached f (cd i) k * reached f (cd i) k)%Z ->
  seen f bx by_ (x0 i) (y0 i) (k + 1) j.
Proof.
  intros Hi Hj Hk Hd. destruct (cd_bounds i Hi) as (P1 & P2 & _).
  specialize (W1 i Hi). specialize (W2 j Hj). cbv zeta in W1, W2. fold (x0 i) (y0 i) in W1. fold (bx j) (by_ j) in W2.
  pose proof (cover f k (x0 i) (y0 i) (bx j) (by_ j) (nth i ra1 0) (nth i de1 0) (nth j ra2 0) (nth j de2 0) (cd i))%Z as C. cbv zeta in C.
  destruct W1 as (A1 & A2 & A3 & A4), W2 as (B1 & B2 & B3 & B4).
  specialize (C Hc A1 A2 B1 B2 A3 A4 B3 B4 P1 P2 Hd).
  apply vis_union in C. destruct C as (k' & Hk' & Hin). exists k'. split; [lia|exact Hin].
Qed.
Lemma seen_small i j : i < n1 -> j < n2 -> f_nx f <= 6 -> f_ny f <= 6 -> seen f bx by_ (x0 i) (y0 i) M j.
Proof.
  intros Hi Hj H1 H2. specialize (W1 i Hi). specialize (W2 j Hj). cbv zeta in W1, W2. fold (x0 i) (y0 i) in W1. fold (bx j) (by_ j) in W2.
  destruct W1 as (A1 & A2 & A3 & A4), W2 as (B1 & B2 & B3 & B4).
  pose proof (cover_small f (x0 i) (y0 i) (bx j) (by_ j) Hc A1 A2 B1 B2 H1 H2) as C. fold M in C.
  apply vis_union in C. destruct C as (k' & Hk' & Hin). exists k'. split; [unfold M in *; lia|exact Hin].
Qed.

Lemma cand_dist i c : In c (candidates dist n2 self i) -> snd c < n2 /\
  ((nth (snd c) ra2 0 - nth i ra1 0) * (nth (snd c) ra2 0 - nth i ra1 0) + (nth (snd c) de2 0 - nth i de1 0) * (nth (snd c) de2 0 - nth i de1 0) = fst c)%Z.
Proof. intros H. apply candidates_in in H. destruct H as (A & _ & B). split; [exact A|]. unfold dist, proxy in B. injection B as B. exact B. Qed.

Lemma reach_last i d : i < n1 -> within_reach f d -> (400 * d <= reached f (cd i) (M - 1) * reached f (cd i) (M - 1))%Z.
Proof.
  intros Hi H. destruct (cd_bounds i Hi) as (P1 & _ & P3). unfold within_reach in H. fold M in H.
  assert (R : (10 * ((2 * Z.of_nat M - 3) * f_c f) <= reached f (cd i) (M - 1))%Z).
  { unfold reached, max_dist. destruct (M - 1) as [|m] eqn:E; [unfold M in E; lia|]. replace (S m + 1) with M by lia. lia. }
  assert (P : (0 <= 10 * ((2 * Z.of_nat M - 3) * f_c f))%Z) by (assert (2 <= M) by (unfold M; lia); nia).
  pose proof (Z.mul_le_mono_nonneg _ _ _ _ P R P R). lia.
Qed.

(* ---- what is found ---- *)
Lemma found_sound i col : found i col -> forall c, hd None col = Some c -> In c (candidates dist n2 self i).
Proof. intros (k & _ & (_ & _ & H & _) & _). exact H. Qed.
Lemma found_nearest i col : i < n1 -> found i col ->
  ((f_nx f <= 6 /\ f_ny f <= 6) \/ exists c, In c (candidates dist n2 self i) /\ within_reach f (fst c)) ->
  is_nearest (candidates dist n2 self i) (hd None col).
Proof.
  intros Hi (k & Hk & (_ & _ & Hsound & Hbest) & Hend) Hcase.
  (* every candidate at most as far as a distance which is within reach at depth k is beaten *)
  assert (Reach : forall d, (400 * d <= reached f (cd i) k * reached f (cd i) k)%Z ->
    forall c', In c' (candidates dist n2 self i) -> (fst c' <= d)%Z -> exists c0, hd None col = Some c0 /\ (fst c0 <= fst c')%Z).
  { intros d Hd c' Hc' Hle. apply Hbest; [exact Hc'|]. destruct (cand_dist i c' Hc') as (A & B).
    apply seen_cover; [exact Hi|exact A|exact Hk|]. rewrite B. lia. }
  assert (Done : forall d, (400 * d <= reached f (cd i) k * reached f (cd i) k)%Z ->
    (exists c, In c (candidates dist n2 self i) /\ (fst c <= d)%Z) -> is_nearest (candidates dist n2 self i) (hd None col)).
  { intros d Hd (c & Hc1 & Hc2). destruct (Reach d Hd c Hc1 Hc2) as (c0 & E0 & L0). rewrite E0. split; [apply Hsound, E0|].
    intros c' Hc'. destruct (Z.le_gt_cases (fst c0) (fst c')) as [|G]; [assumption|].
    destruct (Reach d Hd c' Hc' ltac:(lia)) as (c1 & E1 & L1). rewrite E0 in E1. injection E1 as <-. exact L1. }
  destruct Hend as [Hend|(c & Ec & Lc)].
  - destruct Hcase as [(H1 & H2)|(c & Hc1 & Hc2)].
    + assert (All : forall c', In c' (candidates dist n2 self i) -> exists c0, hd None col = Some c0 /\ (fst c0 <= fst c')%Z).
      { intros c' Hc'. apply Hbest; [exact Hc'|]. rewrite Hend. apply seen_small; try assumption. apply (cand_dist i c' Hc'). }
      destruct (hd None col) as [c0|] eqn:E.
      * split; [apply Hsound; reflexivity|]. intros c' Hc'. destruct (All c' Hc') as (c1 & [= <-] & L). exact L.
      * cbn. destruct (candidates dist n2 self i) as [|c' l]; [reflexivity|]. destruct (All c' (or_introl eq_refl)) as (c1 & E1 & _). discriminate.
    + apply (Done (fst c)); [|exists c; split; [exact Hc1|lia]].
      replace k with (M - 1) by lia. apply reach_last; assumption.
  - apply (Done (fst c)); [exact Lc|]. exists c. split; [apply Hsound, Ec|lia].
Qed.
End All.
