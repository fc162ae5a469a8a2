(* C117: values along one axis of an image; and the rest of C116: pixel size, orientation, moves. *)
From Coq Require Import Ascii String QArith Qcanon.
From Verif Require Import Base AstwModel AstwSpec AstwProofs AstwProofs2 AstwProperties.
Local Open Scope list_scope.
Local Open Scope nat_scope.
Notation length := List.length.

Definition known (a : wcs) (p : prm) : Prop :=
  w a = Some p /\ length (has_unit a) = naxis p /\ length (type a) = naxis p /\ length (dims a) = naxis p.
Lemma make_known p key : consistent p -> exists a, make (Some p) key = Ok a /\ known a p.
Proof. intros C. destruct (C116_axes p key C) as (a & E & W & D & H & T & _). exists a. split; [exact E|]. split; [exact W|]. auto. Qed.

(* The value at each pixel of an axis, in the unit asked for, is the one of WCSLIB with the other axes at their reference pixel. *)
Theorem C117_x2w : forall pi a p d u x, known a p -> consistent p -> d < naxis p -> allowed a d u -> pi <> Q2Qc 0 ->
  exists r, x2w pi a d x u = Ok r /\
    Forall2 (fun z y => exists v s, on_axis (crpix p) (naxis p - 1 - d) z v /\ nth_error (p2s p v) (naxis p - 1 - d) = Some s /\ (y * size_of pi u)%Qc = s) x r.
Proof.
  intros pi a p d u x (W & Lh & Lt & _) (_ & _ & Lp & _ & F & _) D A P. unfold x2w. rewrite (proj1 (prepare_ok a p d u W D Lh Lt) A). cbn [obind].
  destruct (lines_ok (crpix p) (p2s p) (naxis p) d x Lp D F) as (pix & r & -> & E & R). cbn [obind]. rewrite E. cbn [obind]. eexists. split; [reflexivity|].
  clear E. induction R as [|z y lx lr (v & V & Y) R IH]; cbn [map]; constructor; [|exact IH]. exists v, y. split; [exact V|]. split; [exact Y|].
  rewrite <- Qcmult_assoc, conv_size by exact P. ring.
Qed.
Print Assumptions C117_x2w.
Example C117_x2w_ex : exists a, make (Some (ex ["WAVE"; "DEC"]%string)) (fun _ => None) = Ok a /\ allowed a 1 wave_um /\ x2w (q 3) a 1 [q 3] wave_um = Ok [q 2000000].
Proof.
  eexists. split; [reflexivity|]. split; [exists true, wave; repeat split; try discriminate; now left|]. vm_compute. repeat f_equal.
Qed.

(* The pixel of each value. *)
Theorem C117_w2x : forall pi a p d u x, known a p -> consistent p -> d < naxis p -> allowed a d u -> pi <> Q2Qc 0 ->
  exists r, w2x pi a d x u = Ok r /\
    Forall2 (fun z y => exists v, on_axis (crval p) (naxis p - 1 - d) (z * size_of pi u)%Qc v /\ nth_error (s2p p v) (naxis p - 1 - d) = Some y) x r.
Proof.
  intros pi a p d u x (W & Lh & Lt & _) (_ & _ & _ & Lv & _ & F) D A P. unfold w2x. rewrite (proj1 (prepare_ok a p d u W D Lh Lt) A). cbn [obind].
  destruct (lines_ok (crval p) (s2p p) (naxis p) d (map (fun z => (z / conv_si2unit pi u)%Qc) x) Lv D F) as (pix & r & -> & E & R). cbn [obind]. exists r. split; [exact E|].
  clear E pix. revert r R. induction x as [|z x IH]; intros r R; cbn [map] in R; inversion R as [|? y ? lr (v & V & Y) R']; subst; constructor; [|now apply IH].
  exists v. split; [|exact Y]. replace (z * size_of pi u)%Qc with (z / conv_si2unit pi u)%Qc; [exact V|].
  assert (N := conv_nonzero pi u P). assert (E := conv_size pi u P). rewrite <- (Qcmult_1_r (z / conv_si2unit pi u)). fold (Q2Qc 1). rewrite <- E. field. exact N.
Qed.
Print Assumptions C117_w2x.
Example C117_w2x_ex : exists a, make (Some (ex ["WAVE"; "DEC"]%string)) (fun _ => None) = Ok a /\ w2x (q 3) a 1 [q 2000000] wave_um = Ok [q 3].
Proof. eexists. split; [reflexivity|]. vm_compute. repeat f_equal. Qed.

(* For an axis which WCSLIB converts independently of the others, the pixels are found back from the values. *)
Theorem C117_roundtrip : forall pi a p d u x, known a p -> consistent p -> d < naxis p -> allowed a d u -> pi <> Q2Qc 0 -> alone p (naxis p - 1 - d) ->
  exists r, x2w pi a d x u = Ok r /\ w2x pi a d r u = Ok x.
Proof.
  intros pi a p d u x K C D A P O. destruct (C117_x2w pi a p d u x K C D A P) as (r & E & R). exists r. split; [exact E|].
  destruct (C117_w2x pi a p d u r K C D A P) as (x' & E' & R'). rewrite E'. f_equal. clear E E'. revert x' R'.
  destruct C as (_ & _ & Lp & Lv & _). induction R as [|z y lx lr (v & s & V & S & Y) R IH]; intros x' R'; inversion R' as [|? z' ? lx' (v' & V' & Z') R'']; subst; [reflexivity|].
  f_equal; [|now apply IH]. destruct V as (Lv1 & V1 & _), V' as (Lv2 & V2 & _). rewrite (O v v') in Z'; [congruence|congruence|congruence|congruence].
Qed.
Print Assumptions C117_roundtrip.
Example C117_roundtrip_ex : alone (ex ["WAVE"; "DEC"]%string) 0.
Proof.
  intros u v Lu Lv H. cbn [ex s2p p2s shift] in *. destruct u as [|u0 [|u1 [|? ?]]]; try discriminate. destruct v as [|v0 [|v1 [|? ?]]]; try discriminate.
  cbn in *. injection H as ->. f_equal. ring.
Qed.

(* build_axis gives the values at the pixels 1, 2, ... up to the dimension. *)
Theorem C117_build : forall pi a p d u n, known a p -> nth_error (dims a) d = Some (Z.of_nat n) ->
  build_axis pi a d u = x2w pi a d (map (fun k => q (Z.of_nat k)) (seq 1 n)) u.
Proof.
  intros pi a p d u n (W & _ & _ & Ld) N. unfold build_axis, x2w. destruct (prepare a d u) as [p'| | | |]; cbn [obind]; try reflexivity.
  rewrite (oget_some _ _ _ N). cbn [obind]. rewrite Nat2Z.id. replace (map (fun i => Q2Qc (inject_Z (Z.of_nat i + 1))) (seq 0 n)) with (map (fun k => q (Z.of_nat k)) (seq 1 n)); [reflexivity|].
  rewrite <- seq_shift, map_map. apply map_ext. intros k. unfold q. do 2 f_equal. lia.
Qed.
Print Assumptions C117_build.
Example C117_build_ex : exists a, make (Some (ex ["WAVE"; "DEC"]%string)) (fun n => if n =? 1 then Some 2%Z else None) = Ok a /\ build_axis (q 3) a 1 wave_m = Ok [q 0; q 1].
Proof. eexists. split; [reflexivity|]. vm_compute. repeat f_equal. Qed.

(* Without WCS, for an axis that does not exist and for a unit that is not one of the axis, the program stops. *)
Theorem C117_stops : forall pi a d u x,
  (w a = None \/ (exists p, known a p /\ (naxis p <= d \/ ~ allowed a d u))) ->
  x2w pi a d x u = CheckFail /\ w2x pi a d x u = CheckFail /\ build_axis pi a d u = CheckFail.
Proof.
  intros pi a d u x H. assert (E : prepare a d u = CheckFail).
  { unfold prepare. destruct H as [->|(p & (W & Lh & Lt & _) & H)]; [reflexivity|]. destruct (Nat.lt_ge_cases d (naxis p)) as [D|D].
    - destruct H as [H|H]; [lia|]. exact (proj2 (prepare_ok a p d u W D Lh Lt) H).
    - rewrite W. destruct (Nat.ltb_spec d (naxis p)); [lia|reflexivity]. }
  unfold x2w, w2x, build_axis. rewrite E. auto.
Qed.
Print Assumptions C117_stops.
Example C117_stops_ex : exists a, make (Some (ex ["WAVE"; "DEC"]%string)) (fun _ => None) = Ok a /\ x2w (q 3) a 0 [q 1] wave_um = CheckFail /\ x2w (q 3) a 2 [q 1] wave_um = CheckFail.
Proof. eexists. repeat split; reflexivity. Qed.

(* Finding: the unit by default is refused for an axis without CUNIT, although it stands for what WCSLIB gives; only "native"
   is accepted, and native is refused for an axis with a unit: no choice works for both. *)
Theorem C117_default_refuted : forall pi a p d x h, known a p -> nth_error (has_unit a) d = Some h ->
  (h = false -> x2w pi a d x wcslib_default = CheckFail /\ build_axis pi a d wcslib_default = CheckFail) /\
  (h = true -> x2w pi a d x native = CheckFail /\ build_axis pi a d native = CheckFail).
Proof.
  intros pi a p d x h K H. assert (N : forall u, ~ allowed a d u -> x2w pi a d x u = CheckFail /\ build_axis pi a d u = CheckFail).
  { intros u NA. destruct (C117_stops pi a d u x) as (A & _ & B); [right; exists p; auto|auto]. }
  split; intros ->; apply N; intros (h' & y & H' & _ & X & _); rewrite H in H'; injection H' as <-.
  - assert (false = true) by (apply X; discriminate). discriminate.
  - now apply X.
Qed.
Print Assumptions C117_default_refuted.
Example C117_default_refuted_ex : exists a, make (Some (Prm [word "PIXEL"] [[]] [q 1] [q 1] (shift (q 1)) (shift (q (-1))))) (fun _ => None) = Ok a /\
  x2w (q 3) a 0 [q 1] wcslib_default = CheckFail /\ x2w (q 3) a 0 [q 1] native = Ok [q 2].
Proof. eexists. split; [reflexivity|]. split; [reflexivity|]. vm_compute. repeat f_equal. Qed.

Definition turn (l : list Qc) : list Qc := match l with [x; y] => [(x + y)%Qc; (y - x)%Qc] | _ => l end.
Definition turn_back (l : list Qc) : list Qc := match l with [a; b] => [((a - b) / Q2Qc 2)%Qc; ((a + b) / Q2Qc 2)%Qc] | _ => l end.
Definition turned : prm := Prm [word "WAVE"; word "FREQ"] [word "m"; word "Hz"] [Q2Qc 0; Q2Qc 0] [Q2Qc 0; Q2Qc 0] turn turn_back.
Lemma two_nonzero : Q2Qc 2 <> Q2Qc 0.
Proof. intros X. apply (f_equal this) in X. discriminate. Qed.
Lemma two : Q2Qc 2 = (1 + 1)%Qc.
Proof. apply Qc_is_canon. reflexivity. Qed.
(* Finding: x2w is at the reference pixel of the other axes, w2x at their reference value.  When an axis depends on the others,
   as in an image that is turned, they are not inverse of each other, although the conversions of WCSLIB are. *)
Theorem C117_turned_refuted : consistent turned /\
  (forall v, length v = 2 -> s2p turned (p2s turned v) = v /\ p2s turned (s2p turned v) = v) /\
  exists a, make (Some turned) (fun _ => None) = Ok a /\ allowed a 1 wave_m /\
    forall pi x, x2w pi a 1 [x] wave_m = Ok [x] /\ w2x pi a 1 [x] wave_m = Ok [(x / Q2Qc 2)%Qc].
Proof.
  split; [|split].
  - split; [reflexivity|]. repeat (split; [reflexivity|]). split; intros [|x [|y [|? ?]]] L; try discriminate; reflexivity.
  - intros [|x [|y [|? ?]]] L; try discriminate. cbn [turned s2p p2s turn turn_back]. assert (T := two_nonzero). rewrite two in *. split; f_equal; [|f_equal| |f_equal]; field; exact T.
  - eexists. split; [reflexivity|]. split; [exists true, wave; repeat split; try discriminate; now left|]. intros pi x. split.
    + unfold x2w. cbn -[Qcplus Qcmult Q2Qc Qcopp]. f_equal. f_equal. ring.
    + unfold w2x. cbn -[Qcplus Qcmult Q2Qc Qcopp Qcdiv Qcminus]. assert (T := two_nonzero). f_equal. f_equal. rewrite two in *. field. split; [exact T|intros X; apply (f_equal this) in X; discriminate].
Qed.
Print Assumptions C117_turned_refuted.

(* --- C116, continued --- *)
Lemma north_ok p key i j : consistent p -> celestial p i j -> exists a r d v0 v1 x0 x1 y0 y1, make (Some p) key = Ok a /\
  nth_error (crval p) i = Some r /\ nth_error (crval p) j = Some d /\ point (naxis p) i j r d v0 /\ point (naxis p) i j r (d + Q2Qc (1 # 3600))%Qc v1 /\
  nth_error (s2p p v0) (Nat.min i j) = Some x0 /\ nth_error (s2p p v1) (Nat.min i j) = Some x1 /\
  nth_error (s2p p v0) (Nat.max i j) = Some y0 /\ nth_error (s2p p v1) (Nat.max i j) = Some y1 /\ north a = Ok (Some (x1 - x0, y1 - y0)%Qc).
Proof.
  intros C A. destruct (axes_differ p i j A) as (N & I & J). destruct (make_axes p key i j C A) as (a & E & W & E1 & E2 & _).
  assert (Lv : length (crval p) = naxis p) by apply C.
  destruct (nth_error (crval p) i) as [r|] eqn:R; [|apply nth_error_None in R; lia]. destruct (nth_error (crval p) j) as [d|] eqn:D; [|apply nth_error_None in D; lia].
  assert (Ln := proj1 C).
  destruct (C116_ad2xy p key i j (Pts [2] [r; r]) (Pts [2] [d; (d + Q2Qc (1 # 3600))%Qc]) C A eq_refl) as (a' & x & y & E' & T & _ & _ & (Lx & Ly & Im)).
  - split; [reflexivity|]. cbn [pdata length]. lia.
  - split; [reflexivity|]. cbn [pdata length]. lia.
  - discriminate.
  - rewrite E in E'. injection E' as <-. destruct (Im 0 r d eq_refl eq_refl) as (v0 & P0 & X0 & Y0). destruct (Im 1 r _ eq_refl eq_refl) as (v1 & P1 & X1 & Y1). cbn [pdata] in Lx, Ly.
    destruct (pdata x) as [|x0 [|x1 [|? ?]]] eqn:Ex; try discriminate. destruct (pdata y) as [|y0 [|y1 [|? ?]]] eqn:Ey; try discriminate. cbn [nth_error] in X0, X1, Y0, Y1.
    exists a, r, d, v0, v1, x0, x1, y0, y1. split; [exact E|]. split; [reflexivity|]. split; [reflexivity|]. split; [exact P0|]. split; [exact P1|].
    repeat (split; [now symmetry|]). unfold north. rewrite W, E1, E2, !column_ok by assumption. rewrite (zget_ok _ _ _ R), (zget_ok _ _ _ D). cbn [obind]. rewrite T. cbn [obind fst snd].
    rewrite Ex, Ey. reflexivity.
Qed.
(* The pixel size: when one arcsecond to the north of the reference is 1/s pixels away, in any direction, it is s. *)
Theorem C116_pixel_size : forall sqrt p key i j, consistent p -> celestial p i j -> (forall z, (Q2Qc 0 <= z)%Qc -> sqrt (z * z)%Qc = z) ->
  exists a r d v0 v1 x0 x1 y0 y1, make (Some p) key = Ok a /\ nth_error (crval p) i = Some r /\ nth_error (crval p) j = Some d /\
    point (naxis p) i j r d v0 /\ point (naxis p) i j r (d + Q2Qc (1 # 3600))%Qc v1 /\
    nth_error (s2p p v0) (Nat.min i j) = Some x0 /\ nth_error (s2p p v1) (Nat.min i j) = Some x1 /\
    nth_error (s2p p v0) (Nat.max i j) = Some y0 /\ nth_error (s2p p v1) (Nat.max i j) = Some y1 /\
    forall s, (Q2Qc 0 < s)%Qc -> ((x1 - x0) * (x1 - x0) + (y1 - y0) * (y1 - y0) = (Q2Qc 1 / s) * (Q2Qc 1 / s))%Qc -> get_pixel_size sqrt a = Ok (Some s).
Proof.
  intros sqrt p key i j C A Sq. destruct (north_ok p key i j C A) as (a & r & d & v0 & v1 & x0 & x1 & y0 & y1 & E & R & D & P0 & P1 & X0 & X1 & Y0 & Y1 & N).
  exists a, r, d, v0, v1, x0, x1, y0, y1. repeat (split; [assumption|]). intros s S H. unfold get_pixel_size. rewrite N. cbv beta iota delta [omap obind option_map].
  rewrite H, Sq.
  - do 2 f_equal. field. split; [intros X; rewrite X in S; now apply Qclt_not_eq in S|intros X; apply (f_equal this) in X; discriminate].
  - apply Qclt_le_weak. assert (Z : s <> Q2Qc 0) by (intros X; rewrite X in S; now apply Qclt_not_eq in S).
    destruct (Qclt_le_dec (Q2Qc 0) (Q2Qc 1 / s)) as [L|L]; [exact L|]. exfalso.
    assert (M : (Q2Qc 1 / s * s <= Q2Qc 0 * s)%Qc) by (apply Qcmult_le_compat_r; [exact L|now apply Qclt_le_weak]).
    replace (Q2Qc 1 / s * s)%Qc with (Q2Qc 1) in M by (field; exact Z). replace (Q2Qc 0 * s)%Qc with (Q2Qc 0) in M by ring. revert M. apply Qclt_not_le. reflexivity.
Qed.
Print Assumptions C116_pixel_size.
Example C116_pixel_size_ex : exists a, make (Some (ex ["RA"; "DEC"]%string)) (fun _ => None) = Ok a /\
  get_pixel_size (fun z => if Qc_eq_dec z (Q2Qc (1 # 12960000)) then Q2Qc (1 # 3600) else z) a = Ok (Some (q 3600)).
Proof. eexists. split; [reflexivity|]. vm_compute. repeat f_equal. Qed.

Definition mirror (d : Qc) : prm := Prm [word "RA"; word "DEC"] [word "deg"; word "deg"] [Q2Qc 0; Q2Qc 0] [Q2Qc 0; Q2Qc 0]
  (fun l => match l with [x; y] => [(d * x)%Qc; y] | _ => l end) (fun l => match l with [r; e] => [(d * r)%Qc; e] | _ => l end).
(* Finding: the rotation only looks at the direction of the north.  "An angle of zero means that the RA axis maps to -X": a
   mirrored image, where RA goes to +X, has the same angle. *)
Theorem C116_mirror_refuted : forall atan, exists a b,
  make (Some (mirror (- Q2Qc 1))) (fun _ => None) = Ok a /\ make (Some (mirror (Q2Qc 1))) (fun _ => None) = Ok b /\
  ad2xy a (Pts [1] [q 1]) (Pts [1] [q 0]) = Ok (Pts [1] [q (-1)], Pts [1] [q 0]) /\ ad2xy b (Pts [1] [q 1]) (Pts [1] [q 0]) = Ok (Pts [1] [q 1], Pts [1] [q 0]) /\
  get_image_rotation atan a = Ok (Some (- atan (Q2Qc 0) (Q2Qc (1 # 3600)))%Qc) /\ get_image_rotation atan b = get_image_rotation atan a.
Proof.
  intros atan. eexists _, _. split; [reflexivity|]. split; [reflexivity|]. split; [cbv; repeat f_equal; apply Qc_is_canon; reflexivity|]. split; [cbv; repeat f_equal; apply Qc_is_canon; reflexivity|].
  assert (X : forall k, k = (- Q2Qc 1)%Qc \/ k = Q2Qc 1 -> get_image_rotation atan (Wcs (Some (mirror k)) [0; 0]%Z [true; true] [spatial; spatial] 1 0 1 0 true) = Ok (Some (- atan (Q2Qc 0) (Q2Qc (1 # 3600)))%Qc)).
  { intros k _. unfold get_image_rotation. replace (north (Wcs (Some (mirror k)) [0; 0]%Z [true; true] [spatial; spatial] 1 0 1 0 true)) with (@Ok (option (Qc * Qc)) (Some (Q2Qc 0, Q2Qc (1 # 3600)))); [reflexivity|].
    cbv -[Qcplus Qcmult Q2Qc Qcopp Qcminus]. apply f_equal, f_equal. f_equal; ring. }
  split; [exact (X _ (or_introl eq_refl))|]. etransitivity; [exact (X _ (or_intror eq_refl))|]. symmetry. exact (X _ (or_introl eq_refl)).
Qed.
Print Assumptions C116_mirror_refuted.

(* A moved WCS keeps everything, and the one it comes from is no longer valid. *)
Theorem C116_move : forall a b, 
  (let '(c, d) := move_construct b in w c = w b /\ dims c = dims b /\ has_unit c = has_unit b /\ type c = type b /\
     (forall u v, ad2xy c u v = ad2xy b u v /\ xy2ad c u v = xy2ad b u v) /\ is_valid d = false) /\
  (let '(c, d) := move_assign a b in w c = w b /\ dims c = dims b /\ has_unit c = has_unit b /\ type c = type b /\
     (forall u v, ad2xy c u v = ad2xy b u v /\ xy2ad c u v = xy2ad b u v) /\ is_valid d = false).
Proof. intros a b. split; cbn; repeat split. Qed.
Print Assumptions C116_move.
Example C116_move_ex : exists a, make (Some (ex ["RA"; "DEC"]%string)) (fun _ => None) = Ok a /\ is_valid (fst (move_construct a)) = true /\ is_valid (snd (move_construct a)) = false.
Proof. eexists. repeat split; reflexivity. Qed.

(* Finding: the flag that tells that WCSLIB is up to date is not moved.  A WCS that was modified (flag_dirty), and is assigned to
   one that is up to date, is not updated any more by update(). *)
Theorem C116_dirty_refuted : forall a b, isset a = true -> update_sets (flag_dirty b) = true /\ update_sets (fst (move_assign a (flag_dirty b))) = false.
Proof. intros a b H. unfold update_sets. cbn. now rewrite H. Qed.
Print Assumptions C116_dirty_refuted.
Example C116_dirty_refuted_ex : exists a, make (Some (ex ["RA"; "DEC"]%string)) (fun _ => None) = Ok a /\ isset a = true.
Proof. eexists. split; reflexivity. Qed.
