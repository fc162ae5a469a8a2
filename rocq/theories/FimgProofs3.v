From Verif Require Import Base FimgModel FimgSpec FimgProofs FimgProofs2.
From Coq Require Import Lia.
Open Scope Z_scope.

Lemma upd_mid {A} (a : list A) x b y : upd (a ++ x :: b) (length a) y = a ++ y :: b.
Proof. induction a as [|z a IH]; [reflexivity|]. cbn. now rewrite IH. Qed.
Lemma oset_mid {A} (a : list A) x b y k : k = length a -> oset (a ++ x :: b) k y = Ok (a ++ y :: b).
Proof. intros ->. unfold oset. rewrite app_length. cbn [length]. destruct (Nat.ltb_spec (length a) (length a + S (length b))); [|lia]. now rewrite upd_mid. Qed.
Lemma repeat_snoc {A} (x : A) n l : repeat x (S n) ++ l = repeat x n ++ x :: l.
Proof. induction n as [|n IH]; [reflexivity|]. cbn [repeat app] in *. now rewrite IH. Qed.

Lemma indices_eq args : forall D pre F L, length D = length args ->
  make_indices (length pre) (rev (pre ++ D)) (repeat 0 (length args) ++ F) (repeat 0 (length args) ++ L) args =
  (bs <- omapl (fun '(n, r) => bounds n r) (combine D args) ;; Ok (rev (map fst bs) ++ F, rev (map snd bs) ++ L)).
Proof.
  induction args as [|r args IH]; intros [|d D] pre F L E; try discriminate; [reflexivity|]. cbn [length] in E.
  cbn [make_indices combine omapl length].
  assert (K : (length (rev (pre ++ d :: D)) - 1 - length pre)%nat = length D) by (rewrite rev_length, app_length; cbn [length]; lia).
  rewrite K. unfold oget. rewrite nth_error_rev by (rewrite app_length; cbn [length]; lia).
  replace (length (pre ++ d :: D) - 1 - length D)%nat with (length pre) by (rewrite app_length; cbn [length]; lia).
  rewrite nth_error_app2 by lia. rewrite Nat.sub_diag. cbn [nth_error obind].
  destruct (bounds d r) as [fl| | | |]; cbn [obind]; try reflexivity.
  rewrite !repeat_snoc. rewrite !oset_mid by (rewrite repeat_length; lia). cbn [obind].
  specialize (IH D (pre ++ [d]) (fst fl :: F) (snd fl :: L) ltac:(lia)). rewrite app_length, <- app_assoc in IH. cbn [length app] in IH. rewrite IH.
  destruct (omapl (fun '(n, r0) => bounds n r0) (combine D args)) as [bs| | | |]; cbn [obind]; try reflexivity.
  cbn [map rev]. now rewrite <- !app_assoc.
Qed.
Lemma bounds_ok n r : selects n r -> n < 2 ^ 60 -> bounds n r = Ok (first_of r + 1, last_of n r + 1).
Proof.
  intros (A & B & C) T. assert (K := P60). assert (K2 := T63).
  assert (W : forall z, 0 <= z < n -> to_long (z + 1) = z + 1).
  { intros z Z. unfold to_long. rewrite wrap_small by lia. apply signed_small. lia. }
  destruct r; cbn [first_of last_of bounds] in *; rewrite ?W by lia.
  - do 2 f_equal. lia.
  - destruct (Z.ltb_spec l n); [reflexivity|lia].
  - do 2 f_equal. lia.
  - destruct (Z.ltb_spec l n); [reflexivity|lia].
  - destruct (Z.ltb_spec i n); [reflexivity|lia].
Qed.
(* reading dims back from the bounds *)
Lemma subset_dims (bs : list (Z * Z)) n fp lp : n = length bs -> fp = rev (map fst bs) -> lp = rev (map snd bs) ->
  omapl (fun i => f <- oget fp (n - 1 - i) ;; l <- oget lp (n - 1 - i) ;; Ok (wrap64 ((l - f) + 1))) (seq 0 n) =
  Ok (map (fun '(f, l) => wrap64 (l - f + 1)) bs).
Proof.
  intros -> -> ->. rewrite (omapl_ok _ (fun i => let '(f, l) := nth i bs (0, 0) in wrap64 (l - f + 1))).
  - f_equal. rewrite <- (map_nth_seq bs (0, 0)) at 2. now rewrite map_map.
  - intros i I. apply in_seq in I.
    assert (G : forall g : Z * Z -> Z, oget (rev (map g bs)) (length bs - 1 - i) = Ok (g (nth i bs (0, 0)))).
    { intros g. unfold oget. rewrite nth_error_rev by (rewrite map_length; lia). rewrite map_length.
      replace (length bs - 1 - (length bs - 1 - i))%nat with i by lia. rewrite nth_error_map, (nth_error_nth' bs (0, 0)) by lia. reflexivity. }
    rewrite !G. cbn [obind]. now destruct (nth i bs (0, 0)).
Qed.

(* the pixels of the part *)
Definition axis_ok (a : Z * (Z * Z)) : Prop := let '(n, (f, l)) := a in 1 <= f /\ f <= l /\ l <= n.
Definition count (a : Z * (Z * Z)) : Z := let '(n, (f, l)) := a in l - f + 1.
Definition start (a : Z * (Z * Z)) : Z := let '(n, (f, l)) := a in f - 1.
Lemma steps_len f l : length (steps f l) = Z.to_nat (Z.abs (l - f) + 1).
Proof. unfold steps. now rewrite map_length, seq_length. Qed.
Lemma steps_nth f l i : f <= l -> 0 <= i < l - f + 1 -> nth_error (steps f l) (Z.to_nat i) = Some (f - 1 + i).
Proof.
  intros H I. unfold steps. rewrite nth_error_map. rewrite (nth_error_nth' _ 0%nat) by (rewrite seq_length; lia). rewrite seq_nth by lia.
  cbn [option_map]. destruct (Z.leb_spec f l); [|lia]. f_equal. lia.
Qed.
Lemma flat_nth {A B} (g : A -> list B) n l : (forall a, In a l -> length (g a) = n) -> forall q x a, (x < n)%nat -> nth_error l q = Some a ->
  nth_error (flat_map g l) (x + n * q) = nth_error (g a) x.
Proof.
  induction l as [|b l IH]; intros H q x a X Q; [destruct q; discriminate|]. cbn [flat_map]. assert (Hb := H b (or_introl eq_refl)).
  destruct q as [|q]; cbn [nth_error] in Q.
  - injection Q as ->. rewrite Nat.mul_0_r, Nat.add_0_r. apply nth_error_app1. lia.
  - rewrite nth_error_app2 by nia. replace (x + n * S q - length (g b))%nat with (x + n * q)%nat by nia. apply IH; auto. intros c C. apply H. now right.
Qed.
Lemma flat_len {A B} (g : A -> list B) n l : (forall a, In a l -> length (g a) = n) -> length (flat_map g l) = (n * length l)%nat.
Proof. induction l as [|b l IH]; intros H; [cbn; lia|]. cbn [flat_map]. rewrite app_length, (H b) by (left; reflexivity). rewrite IH by (intros; apply H; now right). cbn [length]. lia. Qed.
Lemma counts_pos axes : Forall axis_ok axes -> Forall (fun d => 1 <= d) (map count axes).
Proof. induction 1 as [|(n & f & l) axes H F IH]; cbn [map]; constructor; [cbn in *; lia|exact IH]. Qed.
Lemma offsets_len axes : Forall axis_ok axes -> Z.of_nat (length (offsets axes)) = total (map count axes).
Proof.
  induction 1 as [|(n & f & l) axes H F IH]; [reflexivity|]. cbn [offsets map]. rewrite total_cons.
  rewrite (flat_len _ (length (steps f l))) by (intros; apply map_length). rewrite steps_len. cbn [axis_ok count] in *. rewrite Nat2Z.inj_mul, IH. f_equal. lia.
Qed.
Lemma offsets_nth axes ps : Forall axis_ok axes -> Forall2 (fun d i => 0 <= i < d) (map count axes) ps ->
  nth_error (offsets axes) (Z.to_nat (fplace (map count axes) ps)) = Some (fplace (map fst axes) (map (fun '(a, i) => start a + i) (combine axes ps))).
Proof.
  intros F. revert ps. induction F as [|(n & f & l) axes H F IH]; intros ps V; inversion V; subst; [reflexivity|].
  cbn [map fplace combine offsets fst]. cbn [axis_ok count start] in *.
  match goal with V : Forall2 _ (map count axes) ?ps |- _ => assert (R := fplace_range _ _ V); specialize (IH ps V) end.
  match goal with |- nth_error _ (Z.to_nat (?i + _ * ?q)) = _ => replace (Z.to_nat (i + (l - f + 1) * q)) with (Z.to_nat i + length (steps f l) * Z.to_nat q)%nat by (rewrite steps_len; nia) end.
  erewrite (flat_nth _ (length (steps f l))); [| intros; apply map_length | rewrite steps_len; lia | exact IH].
  rewrite nth_error_map, steps_nth by lia. cbn [option_map start]. f_equal.
Qed.
Lemma combine_app {A B} (a c : list A) (b d : list B) : length a = length b -> combine (a ++ c) (b ++ d) = combine a b ++ combine c d.
Proof. revert b. induction a as [|x a IH]; intros [|y b] E; try discriminate; [reflexivity|]. cbn. rewrite IH; [reflexivity|]. now injection E. Qed.
Lemma combine_rev {A B} (a : list A) (b : list B) : length a = length b -> combine (rev a) (rev b) = rev (combine a b).
Proof.
  revert b. induction a as [|x a IH]; intros [|y b] E; try discriminate; [reflexivity|]. cbn [length] in E. cbn [rev combine].
  rewrite combine_app by (rewrite !rev_length; lia). rewrite IH by lia. reflexivity.
Qed.
Lemma combine_split' {A B} (l : list (A * B)) : combine (map fst l) (map snd l) = l.
Proof. induction l as [|(a, b) l IH]; [reflexivity|]. cbn. now rewrite IH. Qed.
Lemma offsets_bound axes o : Forall axis_ok axes -> In o (offsets axes) -> 0 <= o < total (map fst axes).
Proof.
  intros F. revert o. induction F as [|(n & f & l) axes H F IH]; intros o I; cbn [offsets map fst] in *.
  - destruct I as [<-|[]]. cbn. lia.
  - apply in_flat_map in I. destruct I as (q & Q & X). apply in_map_iff in X. destruct X as (x & <- & X). specialize (IH q Q).
    unfold steps in X. apply in_map_iff in X. destruct X as (i & E & I2). apply in_seq in I2. cbn [axis_ok] in H.
    destruct (Z.leb_spec f l); [|lia]. rewrite total_cons. assert (0 <= x < n) by lia. clear - H1 IH. nia.
Qed.
Lemma Forall2_combine {A B} (P : A -> B -> Prop) a b : Forall2 P a b -> Forall (fun '(x, y) => P x y) (combine a b).
Proof. induction 1; cbn; constructor; auto. Qed.

Definition ends (D : list Z) (args : list rng) : list (Z * Z) := map (fun '(n, r) => (first_of r + 1, last_of n r + 1)) (combine D args).
Lemma axes_eq D args : length D = length args ->
  combine (rev D) (combine (rev (map fst (ends D args))) (rev (map snd (ends D args)))) = rev (combine D (ends D args)).
Proof.
  intros E. rewrite combine_rev by now rewrite !map_length. rewrite combine_split'. apply combine_rev. unfold ends. rewrite map_length, combine_length. lia.
Qed.
Lemma axes_ok D args : Forall2 selects D args -> Forall axis_ok (combine D (ends D args)).
Proof.
  unfold ends. induction 1 as [|d r D args H F IH]; cbn [combine map]; constructor; [|exact IH]. destruct H as (A & B & C). cbn [axis_ok]. lia.
Qed.
Lemma axes_fst D args : length D = length args -> map fst (combine D (ends D args)) = D.
Proof. revert args. unfold ends. induction D as [|d D IH]; intros [|r args] E; try discriminate; [reflexivity|]. cbn. rewrite IH; [reflexivity|]. now injection E. Qed.
Lemma axes_count D args : length D = length args -> map count (combine D (ends D args)) = map (fun '(n, r) => last_of n r - first_of r + 1) (combine D args).
Proof. revert args. unfold ends. induction D as [|d D IH]; intros [|r args] E; try discriminate; [reflexivity|]. cbn [combine map count]. rewrite IH by now injection E. f_equal. lia. Qed.
Lemma axes_start D args ids : length D = length args -> length D = length ids ->
  map (fun '(a, i) => start a + i) (combine (combine D (ends D args)) ids) = map (fun '(r, i) => first_of r + i) (combine args ids).
Proof.
  revert args ids. unfold ends. induction D as [|d D IH]; intros [|r args] [|i ids] E E'; try discriminate; [reflexivity|].
  cbn [combine map start]. rewrite IH by (now injection E + now injection E'). f_equal. lia.
Qed.
Lemma map_combine_rev {A B C} (g : A * B -> C) a b : length a = length b -> map g (combine (rev a) (rev b)) = rev (map g (combine a b)).
Proof. intros E. now rewrite combine_rev, map_rev. Qed.
Lemma forallb_ins axes : Forall axis_ok axes ->
  forallb (fun a : Z * (Z * Z) => let '(n, (f, l)) := a in ((1 <=? f) && (f <=? n) && (1 <=? l) && (l <=? n))) axes = true.
Proof.
  intros F. apply forallb_forall. intros (n & f & l) I. rewrite Forall_forall in F. specialize (F _ I). cbn [axis_ok] in F.
  rewrite !andb_true_iff, !Z.leb_le. lia.
Qed.
Lemma selects_pos D args : Forall2 selects D args -> Forall (fun d => 1 <= d) D.
Proof. induction 1 as [|d r D args (A & B & C) F IH]; constructor; [lia|exact IH]. Qed.
Lemma total_le a b : Forall2 (fun x y => 0 <= x <= y) a b -> 0 <= total a <= total b.
Proof. induction 1 as [|x y a b H F IH]; [cbn; lia|]. rewrite !total_cons. nia. Qed.

Lemma counts_wrap DD bs : length DD = length bs -> Forall (fun d => 1 <= d) (map count (combine DD bs)) -> Forall (fun c => c < two64) (map count (combine DD bs)) ->
  map (fun '(f, l) => wrap64 (l - f + 1)) bs = map count (combine DD bs).
Proof.
  revert bs. induction DD as [|d DD IH]; intros [|(f & l) bs] E CP B; try discriminate; [reflexivity|].
  cbn [combine map count] in *. inversion CP; subst. inversion B; subst. rewrite IH by (auto; now injection E). f_equal. apply wrap_small. lia.
Qed.
Lemma subset_ok h u n v args : read h u n = Ok v -> proper v -> Forall2 selects (dims v) args -> exists w, read_subset h u args = Ok w /\ part v args w.
Proof.
  intros R P V. destruct (read_inv _ _ _ _ R P) as (im & -> & C & N & L & LP & D). destruct P as (P1 & P2 & P3).
  assert (LA := Forall2_len _ _ _ V). set (DD := dims v) in *. set (bs := ends DD args).
  assert (LB : length bs = length args) by (unfold bs, ends; rewrite map_length, combine_length; lia).
  assert (SP := selects_pos _ _ V). assert (SG := total_ge _ SP).
  assert (BS : omapl (fun '(n, r) => bounds n r) (combine DD args) = Ok bs).
  { apply omapl_ok. intros (d & r) I. assert (H := Forall2_combine _ _ _ V). rewrite Forall_forall in H. specialize (H _ I). cbn in H.
    apply bounds_ok; [exact H|]. rewrite Forall_forall in SG. apply in_combine_l in I. specialize (SG _ I). cbn in SG. lia. }
  assert (I := indices_eq args DD [] [] [] LA). cbn [length app] in I. rewrite !app_nil_r, BS in I. cbn [obind] in I. rewrite !app_nil_r in I.
  set (axes := combine DD bs). assert (AX := axes_eq DD args LA). fold bs in AX. fold axes in AX.
  assert (AO := axes_ok _ _ V). fold bs in AO. fold axes in AO. assert (AOR := Forall_rev AO).
  assert (CT := axes_count DD args LA). fold bs in CT. fold axes in CT. set (cnt := map count axes) in *.
  assert (AF := axes_fst DD args LA). fold bs in AF. fold axes in AF.
  assert (CP := counts_pos _ AO). fold cnt in CP.
  assert (CLE : 0 <= total cnt <= total DD).
  { apply total_le. unfold cnt. rewrite <- AF. clear - AO. induction AO as [|(x & f & l) axes H F IH]; cbn [map]; constructor; [cbn in *; lia|exact IH]. }
  assert (DS : map (fun '(f, l) => wrap64 (l - f + 1)) bs = cnt).
  { assert (B : Forall (fun c => c < two64) cnt).
    { assert (K := P60). assert (K2 := T63). eapply Forall_impl; [|exact (total_ge _ CP)]. cbn. intros c Hc. lia. }
    apply counts_wrap; [lia|exact CP|exact B]. }
  unfold read_subset, read_prep. rewrite N, rev_length, LA, Nat.eqb_refl, C. cbn [ensure obind]. rewrite N, I. cbn [obind].
  rewrite (subset_dims bs (length args)) by (auto || reflexivity). cbn [obind]. rewrite DS.
  rewrite allocate_ok by (lia || (eapply Forall_impl; [|exact CP]; cbn; intros; lia)). cbn [obind].
  unfold cfits_subset. rewrite N, AX. rewrite forallb_ins by exact AOR.
  assert (OL := offsets_len _ AOR). rewrite map_rev, total_rev in OL. fold cnt in OL. rewrite OL, Z.eqb_refl. cbn [andb].
  set (offs := offsets (rev axes)) in *.
  assert (OB : forall o, In o offs -> 0 <= o < total DD).
  { intros o O. assert (B := offsets_bound _ o AOR O). now rewrite map_rev, AF, total_rev in B. }
  rewrite (omapl_ok _ (fun o => nth (Z.to_nat o) (pixels im) 0)).
  2:{ intros o O. specialize (OB o O). rewrite (nth_error_nth' _ 0) by lia. reflexivity. }
  cbn [obind].
  assert (LD : omapl (load u) (map (fun o => nth (Z.to_nat o) (pixels im) 0) offs) = Ok (map (fun o => nth (Z.to_nat o) (data v) 0) offs)).
  { clear OL. induction offs as [|o offs IH]; [reflexivity|]. cbn [map omapl]. assert (O := OB o (or_introl eq_refl)).
    assert (Q : nth_error (firstn (length (data v)) (pixels im)) (Z.to_nat o) = Some (nth (Z.to_nat o) (pixels im) 0)).
    { assert (E : nth_error (pixels im) (Z.to_nat o) = Some (nth (Z.to_nat o) (pixels im) 0)) by (apply nth_error_nth'; lia).
      rewrite <- (firstn_skipn (length (data v)) (pixels im)) in E at 1. rewrite nth_error_app1 in E; [exact E|]. rewrite firstn_length. lia. }
    destruct (omapl_nth _ _ _ _ _ D Q) as (z & Z1 & Z2). rewrite Z1. cbn [obind]. rewrite IH by (intros; apply OB; now right). cbn [obind].
    now rewrite (nth_error_nth _ _ 0 Z2). }
  rewrite LD. cbn [obind]. eexists. split; [reflexivity|]. unfold part. cbn [dims data]. split; [exact CT|]. split; [rewrite map_length; exact OL|].
  intros ids VI. assert (LI := Forall2_len _ _ _ VI). unfold cnt in LI. rewrite map_length in LI. unfold axes in LI. rewrite combine_length in LI.
  assert (LI' : length DD = length ids) by lia.
  unfold at_. cbn [dims data]. fold DD. set (X := map (fun '(r, i) => first_of r + i) (combine args ids)).
  assert (E : place cnt ids = fplace (map count (rev axes)) (rev ids)).
  { rewrite map_rev. fold cnt. apply place_rev. exact (Forall2_len _ _ _ VI). }
  rewrite E. assert (VR := Forall2_rev' _ _ _ VI). unfold cnt in VR. rewrite <- map_rev in VR.
  assert (ON := offsets_nth _ _ AOR VR). fold offs in ON.
  rewrite map_combine_rev in ON by (unfold axes; rewrite combine_length; lia). rewrite (map_rev fst axes), AF in ON.
  unfold axes in ON. unfold bs in ON. rewrite (axes_start DD args ids LA LI') in ON. fold X in ON.
  assert (LX : length DD = length X) by (unfold X; rewrite map_length, combine_length; lia).
  rewrite <- place_rev in ON by exact LX. fold axes in ON.
  exists (nth (Z.to_nat (place DD X)) (data v) 0).
  split.
  - fold axes in ON. rewrite nth_error_map. fold bs in ON. fold axes in ON. rewrite ON. reflexivity.
  - apply nth_error_nth'. assert (B := OB _ (nth_error_In _ _ ON)). lia.
Qed.
