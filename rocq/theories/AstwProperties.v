(* C116: sky positions and pixels. *)
From Coq Require Import Ascii String QArith Qcanon.
From Verif Require Import Base StrSpec AstwModel AstwSpec AstwProofs.
From Verif Require KeySpec.
Local Open Scope list_scope.
Local Open Scope nat_scope.
Notation length := List.length.

(* a small WCS for the examples: DEC and RA exchanged or not, pixel = value + 1 *)
Definition shift (d : Qc) (l : list Qc) : list Qc := map (fun z => (z + d)%Qc) l.
Definition ex (l : list string) : prm :=
  Prm (map word l) (map (fun _ => word "deg") l) (map (fun _ => Q2Qc 0) l) (map (fun _ => Q2Qc 0) l) (shift (- Q2Qc 1)) (shift (Q2Qc 1)).
Definition q (z : Z) : Qc := Q2Qc (inject_Z z).

(* What is known of each axis comes from the keywords of its number, and is in the place of its dimension:
   the dimension (0 without NAXISn), whether it has a unit, its type. *)
Theorem C116_axes : forall p key, consistent p -> exists a, make (Some p) key = Ok a /\ w a = Some p /\
  length (dims a) = naxis p /\ length (has_unit a) = naxis p /\ length (type a) = naxis p /\
  forall f, f < naxis p ->
    nth_error (dims a) (naxis p - 1 - f) = Some (match key (f + 1) with Some d => d | None => 0%Z end) /\
    (exists h, nth_error (has_unit a) (naxis p - 1 - f) = Some h /\ (h = true <-> exists c, nth_error (cunit p) f = Some c /\ ~ made_of KeySpec.white c)) /\
    (exists y t, nth_error (type a) (naxis p - 1 - f) = Some y /\ axis_is p f t /\ type_of t y).
Proof.
  intros p key C. assert (C2 := proj1 (proj2 C)). destruct (dims_ok p key) as (ds & Ed & Ld & Fd). destruct (units_ok p C2) as (us & Eu & Lu & Fu). destruct (types_ok p) as (ts & Et & Lt & Ft).
  unfold make. rewrite Ed, Eu, Et. cbn [obind]. assert (A : exists ra dec x y, read_axes p = Ok (ra, dec, (x, y))).
  { unfold read_axes. destruct (find_loop_ok p (lit "RA") (naxis p) 0 eq_refl) as [(E & _)|(g & _ & E & _)]; unfold find_axis; rewrite E;
    destruct (find_loop_ok p (lit "DEC") (naxis p) 0 eq_refl) as [(E' & _)|(g' & _ & E' & _)]; rewrite E'; cbn [obind];
    repeat match goal with |- context [if ?b then _ else _] => destruct b end; eauto 6. }
  destruct A as (ra & dec & x & y & ->). cbn [obind]. eexists. split; [reflexivity|]. cbn [w dims has_unit type]. split; [reflexivity|]. split; [exact Ld|]. split; [exact Lu|]. split; [exact Lt|].
  intros f F. destruct (Fd f F) as (d & D & ->), (Fu f F) as (h & H & X), (Ft f F) as (t & T & k & K & Y). split; [exact D|]. split; [exists h; auto|exists t, k; auto].
Qed.
Print Assumptions C116_axes.
Example C116_axes_ex : exists a, make (Some (ex ["RA---TAN"; "DEC--TAN"; "WAVE"]%string)) (fun n => if n =? 3 then None else Some (Z.of_nat n * 10)%Z) = Ok a /\
  dims a = [0; 20; 10]%Z /\ type a = [wave; spatial; spatial] /\ ra_axis a = 2%Z /\ dec_axis a = 1%Z.
Proof. eexists. split; [reflexivity|]. repeat split; reflexivity. Qed.

Lemma make_axes p key i j : consistent p -> celestial p i j -> exists a, make (Some p) key = Ok a /\ w a = Some p /\
  ra_axis a = Z.of_nat (naxis p - 1 - i) /\ dec_axis a = Z.of_nat (naxis p - 1 - j) /\
  x_axis a = Z.of_nat (naxis p - 1 - Nat.min i j) /\ y_axis a = Z.of_nat (naxis p - 1 - Nat.max i j).
Proof.
  intros C A. assert (C2 := proj1 (proj2 C)). destruct (dims_ok p key) as (ds & Ed & _). destruct (units_ok p C2) as (us & Eu & _). destruct (types_ok p) as (ts & Et & _).
  unfold make. rewrite Ed, Eu, Et, (axes_ok p i j C A). cbn [obind]. eexists. split; [reflexivity|]. cbn. auto.
Qed.
Lemma axes_differ p i j : celestial p i j -> i <> j /\ i < naxis p /\ j < naxis p.
Proof.
  intros [[A _] [B _]]. split; [|split; eapply axis_in; eassumption]. intros ->. destruct A as (s & E & K), B as (s' & E' & K'). rewrite E in E'. injection E' as <-.
  assert (X := kind_fun _ _ _ K K'). discriminate.
Qed.
(* With axes RA and DEC: each position is converted on its own, by WCSLIB, with the right ascension and the declination
   at their axes and 0 at the others.  x is the faster one of the two axes, y the slower one. *)
Theorem C116_ad2xy : forall p key i j ra dec, consistent p -> celestial p i j ->
  pdims ra = pdims dec -> fits (naxis p) ra -> fits (naxis p) dec -> pdata ra <> [] ->
  exists a x y, make (Some p) key = Ok a /\ ad2xy a ra dec = Ok (x, y) /\ pdims x = pdims ra /\ pdims y = pdims ra /\
    images (s2p p) (naxis p) i j (Nat.min i j) (Nat.max i j) (pdata ra) (pdata dec) (pdata x) (pdata y).
Proof.
  intros p key i j ra dec C A D [Lr Mr] [Ld _] NE. destruct (make_axes p key i j C A) as (a & E & W & E1 & E2 & E3 & E4). destruct (axes_differ p i j A) as (N & I & J).
  destruct (through_ok a s2p p i j (Nat.min i j) (Nat.max i j) ra dec W (proj1 C) I J N) as (x & y & T & D1 & D2 & Im); try assumption; try lia.
  - intros r R. now apply C.
  - congruence.
  - exists a, x, y. unfold ad2xy. rewrite E1, E2, E3, E4. auto.
Qed.
Print Assumptions C116_ad2xy.
Example C116_ad2xy_ex : exists a x y, make (Some (ex ["DEC--TAN"; "FREQ"; "RA---TAN"]%string)) (fun _ => None) = Ok a /\
  ad2xy a (Pts [2] [q 10; q 20]) (Pts [2] [q 5; q 6]) = Ok (x, y) /\ pdata x = [q 6; q 7] /\ pdata y = [q 11; q 21].
Proof. eexists _, _, _. split; [reflexivity|]. split; [vm_compute; reflexivity|]. split; vm_compute; reflexivity. Qed.

(* And back. *)
Theorem C116_xy2ad : forall p key i j x y, consistent p -> celestial p i j ->
  pdims x = pdims y -> fits (naxis p) x -> fits (naxis p) y -> pdata x <> [] ->
  exists a ra dec, make (Some p) key = Ok a /\ xy2ad a x y = Ok (ra, dec) /\ pdims ra = pdims x /\ pdims dec = pdims x /\
    images (p2s p) (naxis p) (Nat.min i j) (Nat.max i j) i j (pdata x) (pdata y) (pdata ra) (pdata dec).
Proof.
  intros p key i j x y C A D [Lr Mr] [Ld _] NE. destruct (make_axes p key i j C A) as (a & E & W & E1 & E2 & E3 & E4). destruct (axes_differ p i j A) as (N & I & J).
  destruct (through_ok a p2s p (Nat.min i j) (Nat.max i j) i j x y W (proj1 C)) as (ra & dec & T & D1 & D2 & Im); try assumption; try lia.
  - intros r R. now apply C.
  - congruence.
  - exists a, ra, dec. unfold xy2ad. rewrite E1, E2, E3, E4. auto.
Qed.
Print Assumptions C116_xy2ad.
Example C116_xy2ad_ex : exists a x y, make (Some (ex ["RA---TAN"; "DEC--TAN"]%string)) (fun _ => None) = Ok a /\
  xy2ad a (Pts [1; 2] [q 10; q 20]) (Pts [1; 2] [q 5; q 6]) = Ok (x, y) /\ pdims x = [1; 2] /\ pdata x = [q 9; q 19] /\ pdata y = [q 4; q 5].
Proof. eexists _, _, _. split; [reflexivity|]. split; [vm_compute; reflexivity|]. repeat split; vm_compute; reflexivity. Qed.

(* The positions are found back from the pixels, if WCSLIB does so for these two axes whatever the others. *)
Theorem C116_roundtrip : forall p key i j ra dec, consistent p -> celestial p i j -> undone (s2p p) (p2s p) (naxis p) i j ->
  pdims ra = pdims dec -> fits (naxis p) ra -> fits (naxis p) dec -> pdata ra <> [] ->
  exists a x y, make (Some p) key = Ok a /\ ad2xy a ra dec = Ok (x, y) /\ xy2ad a x y = Ok (ra, dec).
Proof.
  intros p key i j ra dec C A U D Fr Fd NE. destruct (C116_ad2xy p key i j ra dec C A D Fr Fd NE) as (a & x & y & E & T & D1 & D2 & (Lx & Ly & Im)).
  destruct (axes_differ p i j A) as (N & I & J). destruct Fr as [Lr Mr], Fd as [Ld Md]. assert (Lrd : length (pdata dec) = length (pdata ra)) by congruence.
  destruct (C116_xy2ad p key i j x y C A) as (a' & ra' & dec' & E' & T' & D1' & D2' & (Lx' & Ly' & Im')).
  - congruence.
  - split; congruence.
  - split; congruence.
  - intros X. apply NE. rewrite X in Lx. destruct (pdata ra); [reflexivity|discriminate].
  - rewrite E in E'. injection E' as <-. exists a, x, y. split; [exact E|]. split; [exact T|]. rewrite T'. f_equal.
    assert (K : forall k s t, nth_error (pdata ra) k = Some s -> nth_error (pdata dec) k = Some t -> nth_error (pdata ra') k = Some s /\ nth_error (pdata dec') k = Some t).
    { intros k s t Ks Kt. destruct (Im k s t Ks Kt) as (v & (Lv & Vi & Vj & _) & Xk & Yk).
      assert (Kl : k < length (pdata ra)) by (apply nth_error_Some; congruence).
      destruct (nth_error (pdata x) k) as [xk|] eqn:Ex; [|apply nth_error_None in Ex; lia]. destruct (nth_error (pdata y) k) as [yk|] eqn:Ey; [|apply nth_error_None in Ey; lia].
      destruct (Im' k xk yk Ex Ey) as (v' & (Lv' & Vi' & Vj' & _) & Ak & Bk).
      assert (G : forall m, m = i \/ m = j -> nth_error (p2s p v') m = nth_error v m).
      { apply (U v v' Lv Lv'). intros m Hm. assert (m = Nat.min i j \/ m = Nat.max i j) as [->| ->] by lia; congruence. }
      rewrite Ak, Bk. split; [rewrite G by auto; exact Vi|rewrite G by auto; exact Vj]. }
    destruct ra as [d1 l1], dec as [d2 l2], ra' as [d3 l3], dec' as [d4 l4]. cbn [pdims pdata] in *.
    assert (X1 : l3 = l1).
    { apply list_eq_nth_error. intros k. destruct (nth_error l1 k) as [s|] eqn:E1.
      - destruct (nth_error l2 k) as [t|] eqn:E2; [now apply (K k s t)|]. apply nth_error_None in E2. assert (k < length l1) by (apply nth_error_Some; congruence). lia.
      - apply nth_error_None in E1. apply nth_error_None. lia. }
    assert (X2 : l4 = l2).
    { apply list_eq_nth_error. intros k. destruct (nth_error l2 k) as [t|] eqn:E2.
      - destruct (nth_error l1 k) as [s|] eqn:E1; [now apply (K k s t)|]. apply nth_error_None in E1. assert (k < length l2) by (apply nth_error_Some; congruence). lia.
      - apply nth_error_None in E2. apply nth_error_None. lia. }
    subst. f_equal; f_equal; congruence.
Qed.
Print Assumptions C116_roundtrip.
Example C116_roundtrip_ex : undone (s2p (ex ["RA"; "DEC"]%string)) (p2s (ex ["RA"; "DEC"]%string)) 2 0 1.
Proof.
  intros u v Lu Lv H k K. specialize (H k K). cbn [ex s2p p2s shift] in *. destruct u as [|u0 [|u1 [|? ?]]]; try discriminate. destruct v as [|v0 [|v1 [|? ?]]]; try discriminate.
  destruct K as [->| ->]; cbn in *; injection H as ->; f_equal; ring.
Qed.

(* Without WCS, or with arrays of different dimensions, the program stops; without positions there are no pixels. *)
Theorem C116_shapes : forall a u v,
  (w a = None -> ad2xy a u v = CheckFail /\ xy2ad a u v = CheckFail) /\
  (pdims u <> pdims v -> ad2xy a u v = CheckFail /\ xy2ad a u v = CheckFail) /\
  (w a <> None -> pdims u = pdims v -> pdata u = [] -> exists e, pdata e = [] /\ ad2xy a u v = Ok (e, e) /\ xy2ad a u v = Ok (e, e)).
Proof.
  intros a u v. unfold ad2xy, xy2ad, through. split; [|split].
  - intros ->. auto.
  - intros D. destruct (w a); [|auto]. replace (same_dims (pdims u) (pdims v)) with false by (unfold same_dims; destruct (list_eq_dec _ _ _); congruence). auto.
  - intros W D E. destruct (w a); [|congruence]. replace (same_dims (pdims u) (pdims v)) with true by (unfold same_dims; destruct (list_eq_dec _ _ _); congruence).
    rewrite E. cbn. eexists (Pts _ _). split; [|split; reflexivity]. reflexivity.
Qed.
Print Assumptions C116_shapes.
Example C116_shapes_ex : exists a, make (Some (ex ["RA"; "DEC"]%string)) (fun _ => None) = Ok a /\ ad2xy a (Pts [1] [q 1]) (Pts [2] [q 1; q 2]) = CheckFail.
Proof. eexists. split; reflexivity. Qed.

Lemma zput_last l z x : (Z.of_nat (length l) <= z)%Z -> zput l z x = UB.
Proof. intros L. unfold zput. destruct (Z.ltb_spec z (Z.of_nat (length l))); [lia|reflexivity]. Qed.
(* Finding: the test for the axes looks at RA twice.  With an axis RA and none of DEC, the declinations are written outside of the
   array. *)
Theorem C116_no_dec_UB : forall p key i ra dec, consistent p -> first_axis p (word "RA") i -> (forall f, ~ axis_is p f (word "DEC")) ->
  pdims ra = pdims dec -> length (pdata ra) = length (pdata dec) -> pdata ra <> [] -> fits (naxis p) ra ->
  exists a, make (Some p) key = Ok a /\ ad2xy a ra dec = UB.
Proof.
  intros p key i ra dec C A ND D L NE [_ M]. assert (C2 := proj1 (proj2 C)). destruct (dims_ok p key) as (ds & Ed & _). destruct (units_ok p C2) as (us & Eu & _). destruct (types_ok p) as (ts & Et & _).
  unfold make. rewrite Ed, Eu, Et, (axes_ra_only p i C A ND). cbn [obind]. eexists. split; [reflexivity|]. unfold ad2xy, through. cbn [w ra_axis dec_axis x_axis y_axis].
  assert (I := axis_in _ _ _ (proj1 A)). set (n := naxis p) in *.
  replace (same_dims (pdims ra) (pdims dec)) with true by (unfold same_dims; destruct (list_eq_dec _ _ _); congruence). cbn [check obind].
  destruct (Nat.eqb_spec (length (pdata ra)) 0) as [E|E]; [destruct (pdata ra); [congruence|discriminate]|].
  rewrite column_ok by (assumption || apply C). replace (column n npos) with (Z.of_nat n).
  2: { unfold column, npos, wrap64. rewrite T64. replace (Z.of_nat n - 1 - (18446744073709551616 - 1))%Z with (Z.of_nat n + (-1) * 18446744073709551616)%Z by lia.
       rewrite Z.mod_add by lia. rewrite Z.mod_small; [reflexivity|]. destruct C as (C & _). fold n in C. lia. }
  destruct (length (pdata ra)) as [|m] eqn:Lm; [congruence|].
  assert (M' : (Z.of_nat (S m * n) < 2 ^ 63)%Z) by (rewrite <- ?Lm; rewrite ?Lm in *; exact M).
  assert (B : forall k, k <= m -> (k * n + n <= S m * n)) by (intros; nia).
  match goal with |- obind ?e _ = UB => assert (F : e = UB); [|rewrite F; reflexivity] end.
  assert (G : forall k l, k <= m -> length l = S m * n -> 
     ofold (fun l i0 => x <- oget (pdata ra) i0 ;; l <- zput l (at2 n i0 (Z.of_nat i)) x ;; y <- oget (pdata dec) i0 ;; zput l (at2 n i0 (Z.of_nat n)) y) (seq (m - k) (S k)) l = UB).
  { induction k as [|k IH]; intros l K Ll.
    - rewrite Nat.sub_0_r. cbn [seq ofold]. destruct (nth_error (pdata ra) m) as [s|] eqn:Es; [|apply nth_error_None in Es; lia].
      destruct (nth_error (pdata dec) m) as [t|] eqn:Et'; [|apply nth_error_None in Et'; lia]. rewrite (oget_some _ _ _ Es), (oget_some _ _ _ Et'). cbn [obind].
      rewrite (at2_ok n m i (S m)) by (lia || assumption). rewrite zput_ok by (specialize (B m); nia). cbn [obind].
      rewrite zput_last; [reflexivity|]. rewrite upd_length, Ll. unfold at2, wrap64. rewrite T64, Z.mod_small by lia. lia.
    - cbn [seq ofold]. destruct (nth_error (pdata ra) (m - S k)) as [s|] eqn:Es; [|apply nth_error_None in Es; lia].
      destruct (nth_error (pdata dec) (m - S k)) as [t|] eqn:Et'; [|apply nth_error_None in Et'; lia]. rewrite (oget_some _ _ _ Es), (oget_some _ _ _ Et'). cbn [obind].
      assert (K2 : (m - S k) * n + n + n <= S m * n) by (assert (m - S k + 2 <= S m) by lia; nia).
      rewrite (at2_ok n (m - S k) i (S m)) by (lia || assumption). rewrite zput_ok by nia. cbn [obind].
      replace (at2 n (m - S k) (Z.of_nat n)) with (Z.of_nat ((m - S k) * n + n)) by (unfold at2, wrap64; rewrite <- Nat2Z.inj_mul, <- Nat2Z.inj_add, T64, Z.mod_small; [reflexivity|]; clear - K2 M'; revert K2 M'; generalize ((m - S k) * n) (S m * n); intros; lia).
      rewrite zput_ok by (rewrite upd_length; nia). cbn [obind]. replace (S (m - S k)) with (m - k) by lia. apply IH; [lia|]. now rewrite !upd_length. }
  specialize (G m (repeat (Q2Qc 0) (S m * n)) (Nat.le_refl _)). rewrite Nat.sub_diag, repeat_length in G. exact (G eq_refl).
Qed.
Print Assumptions C116_no_dec_UB.
Example C116_no_dec_UB_ex : exists a, make (Some (ex ["RA"; "WAVE"]%string)) (fun _ => None) = Ok a /\ ad2xy a (Pts [1] [q 1]) (Pts [1] [q 1]) = UB.
Proof. eexists. split; reflexivity. Qed.

(* Finding: without an axis RA, the first two axes are taken for RA and DEC, whatever they are; and with a single axis
   the coordinates are written outside of the array. *)
Theorem C116_no_ra_UB : forall p key, consistent p -> (forall f, ~ axis_is p f (word "RA")) ->
  exists a, make (Some p) key = Ok a /\ ra_axis a = 1%Z /\ dec_axis a = 0%Z /\
    (naxis p = 1 -> forall u v, pdims u = pdims v -> length (pdata u) = length (pdata v) -> pdata u <> [] -> fits 1 u -> ad2xy a u v = UB /\ xy2ad a u v = UB).
Proof.
  intros p key C N. assert (C2 := proj1 (proj2 C)). destruct (dims_ok p key) as (ds & Ed & _). destruct (units_ok p C2) as (us & Eu & _). destruct (types_ok p) as (ts & Et & _).
  unfold make. rewrite Ed, Eu, Et, (axes_no_ra p N). cbn [obind]. eexists. split; [reflexivity|]. split; [reflexivity|]. split; [reflexivity|].
  intros E u v D L NE [_ M]. unfold ad2xy, xy2ad, through. cbn [w ra_axis dec_axis x_axis y_axis]. rewrite E.
  replace (same_dims (pdims u) (pdims v)) with true by (unfold same_dims; destruct (list_eq_dec _ _ _); congruence). cbn [check obind].
  destruct (pdata u) as [|s us'] eqn:Eu'; [congruence|]. destruct (pdata v) as [|t vs] eqn:Ev; [discriminate|]. rewrite Nat.mul_1_r in M.
  replace (length (s :: us') =? 0) with false by reflexivity. rewrite Nat.mul_1_r.
  assert (X : forall x, zput (repeat (Q2Qc 0) (length (s :: us'))) (at2 1 0 (column 1 1)) x = UB).
  { intros x. apply zput_last. rewrite repeat_length. change (at2 1 0 (column 1 1)) with (two64 - 1)%Z. rewrite T64. lia. }
  cbn [length seq ofold]. cbn [length] in X. rewrite (oget_some (s :: us') 0 s eq_refl). cbn [obind]. rewrite X. auto.
Qed.
Print Assumptions C116_no_ra_UB.
Example C116_no_ra_UB_ex : exists a, make (Some (ex ["WAVE"]%string)) (fun _ => None) = Ok a /\ ad2xy a (Pts [1] [q 1]) (Pts [1] [q 1]) = UB.
Proof. eexists. split; reflexivity. Qed.
