(* C97: translation, scaling and rotation of an image. *)
From Coq Require Import QArith Qabs Qround Lqa Setoid Lia.
From Verif Require Import Base ImageModel ImageSpec ImageProofs ImageProofs3 GenModel.
From Verif Require SplineProofs4.
From Verif Require Import SplineSpec DrizModel DrizSpec DrizSpec2 DrizProofs12 RegridModel RegridSpec RegridProofs TransfModel TransfSpec TransfProofs TransfProofs2.
Local Open Scope Q_scope.

Definition seen (v : img (option Q)) : list (option Z) :=
  map (fun r => match r with Some q => Some (Qfloor (q * 8)) | None => None end) (pix v).
Definition ramp34 : img (option Q) := Img 3 4 (map (fun k => Some (inject_Z (Z.of_nat k))) (seq 0 12)).
Definition ramp55 : img (option Q) := Img 5 5 (map (fun k => Some (inject_Z (Z.of_nat k))) (seq 0 25)).

(* Translation: every pixel is the bilinear value at its position minus the displacement (the first
   displacement is along the lines' index), or the default value if four pixels do not surround it. *)
Theorem C97_translate : forall v dy dx def, wf v -> fits (nr v) (nc v) -> reachable v (slid dy dx) ->
  exists r, translate v dy dx def = Ok r /\ moved Bilinear def v (slid dy dx) r.
Proof.
  intros v dy dx def W F Re. unfold translate. destruct (filled_any (Some 0) (nr v) (nc v) F) as (r0 & -> & L). cbn [obind].
  apply moved_ok; try assumption; [discriminate|]. intros y x Hy Hx. exists (qn y - dy, qn x - dx). split; [split; reflexivity|reflexivity].
Qed.
Print Assumptions C97_translate.
Example C97_translate_ex : omap seen (translate ramp34 1 (-(1#2)) (Some (-1)))
  = Ok [Some (-8); Some (-8); Some (-8); Some (-8); Some 4; Some 12; Some 20; Some (-8); Some 36; Some 44; Some 52; Some (-8)]%Z.
Proof. vm_compute. reflexivity. Qed.
Example C97_reachable_ex : reachable ramp34 (slid 1 (-(1#2))).
Proof.
  intros y x [[A B] [C D]]. cbn in B, D. unfold slid, moderate. cbn [fst snd].
  rewrite Zle_Qle in A, C. rewrite Zlt_Qlt in B, D. change (inject_Z 0) with 0 in A, C. change (inject_Z 4) with 4 in B. change (inject_Z 3) with 3 in D.
  rewrite big62. repeat split; lra.
Qed.

(* Translation by whole pixels: a copy. *)
Theorem C97_translate_whole : forall v i j def, wf v -> fits (nr v) (nc v) -> all_finite v ->
  reachable v (slid (inject_Z i) (inject_Z j)) ->
  exists r, translate v (inject_Z i) (inject_Z j) def = Ok r /\ copies v r def (fun y x => (y - i, x - j)%Z).
Proof.
  intros v i j def W F Fi Re. destruct (C97_translate v _ _ def W F Re) as (r & E & M). exists r. split; [exact E|].
  eapply moved_int; [exact Fi|exact M|]. intros y x. unfold slid. split; cbn [fst snd]; unfold Z.sub; rewrite inject_Z_plus, inject_Z_opp; reflexivity.
Qed.
Print Assumptions C97_translate_whole.
Example C97_translate_whole_ex : omap seen (translate ramp34 1 0 None)
  = Ok [None; None; None; None; Some 0; Some 8; Some 16; None; Some 32; Some 40; Some 48; None]%Z.
Proof. vm_compute. reflexivity. Qed.
(* Finding: so not even the translation by nothing gives back the image; its last line and its last
   column are lost (the same for a scaling by 1, and a rotation by an angle of 0). *)
Theorem C97_identity_refuted : exists v r, wf v /\ all_finite v /\ translate v 0 0 (Some 0) = Ok r /\
  omap pix (scale v 1 (Some 0)) = Ok (pix r) /\ omap pix (rotate v 1 0 (Some 0)) = Ok (pix r) /\
  px v 0 1 = Some (Some 2) /\ px r 0 1 = Some (Some 0).
Proof.
  exists (Img 1 2 [Some 1; Some 2]). eexists. split; [reflexivity|]. split.
  - intros i j [[A B] [C D]]. cbn in B, D. assert (i = 0)%Z by lia. subst i.
    assert (K : (j = 0 \/ j = 1)%Z) by lia. destruct K as [-> | ->]; eexists; reflexivity.
  - split; [vm_compute; reflexivity|]. repeat split; vm_compute; reflexivity.
Qed.
Print Assumptions C97_identity_refuted.

(* Scaling by a factor about the middle: the pixel at the distance d from the middle is the value at
   the distance d / factor. *)
Theorem C97_scale : forall v f def, wf v -> fits (nr v) (nc v) -> ~ f == 0 -> reachable v (shrunk (nr v) (nc v) f) ->
  exists r, scale v f def = Ok r /\ moved Bilinear def v (shrunk (nr v) (nc v) f) r.
Proof.
  intros v f def W F Hf Re. unfold scale. apply moved_ok; try assumption; [discriminate|]. intros y x Hy Hx.
  destruct (scaled_ok (nr v) f y Hf) as (py & -> & Ey). destruct (scaled_ok (nc v) f x Hf) as (px & -> & Ex). cbn [obind].
  exists (py, px). split; [split; assumption|reflexivity].
Qed.
Print Assumptions C97_scale.
Example C97_scale_ex : omap (fun r => firstn 10 (seen r)) (scale ramp55 2 None)
  = Ok [Some 48; Some 52; Some 56; Some 60; Some 64; Some 68; Some 72; Some 76; Some 80; Some 84]%Z.
Proof. vm_compute. reflexivity. Qed.
Theorem C97_scale_bicubic : forall v f def, wf v -> fits (nr v) (nc v) -> not_thin v -> ~ f == 0 -> reachable v (shrunk (nr v) (nc v) f) ->
  exists r, scale_bicubic v f def = Ok r /\ moved Bicubic def v (shrunk (nr v) (nc v) f) r.
Proof.
  intros v f def W F Th Hf Re. unfold scale_bicubic. apply moved_ok; try assumption; [intros _; exact Th|]. intros y x Hy Hx.
  destruct (scaled_ok (nr v) f y Hf) as (py & -> & Ey). destruct (scaled_ok (nc v) f x Hf) as (px & -> & Ex). cbn [obind].
  exists (py, px). split; [split; assumption|reflexivity].
Qed.
Print Assumptions C97_scale_bicubic.
Example C97_scale_bicubic_ex : exists q,
  omap (fun r => px r 0 1) (scale_bicubic (Img 4 4 (map (fun k => Some (inject_Z (Z.of_nat k))) (seq 0 16))) 2 None) = Ok (Some (Some q)) /\ q == 11#2.
Proof. eexists. split; [vm_compute; reflexivity|]. apply Qeq_bool_iff. vm_compute. reflexivity. Qed.
(* Finding: a factor of 0 is not refused; it makes positions that are not numbers. *)
Theorem C97_scale_zero_UB : forall v def, (1 <= nr v)%nat -> (1 <= nc v)%nat ->
  scale v 0 def = UB /\ scale_bicubic v 0 def = UB.
Proof.
  intros v def H1 H2. unfold scale, scale_bicubic, each_pixel. destruct (nr v) as [|n]; [lia|]. destruct (nc v) as [|m]; [lia|].
  cbn [seq ofold]. split; reflexivity.
Qed.
Print Assumptions C97_scale_zero_UB.

(* Rotation by an angle (of cosine c and sine s) about the middle: the position of the pixel turned
   by the angle, from the axis of the lines to that of the columns. *)
Theorem C97_rotate : forall v c s def, wf v -> fits (nr v) (nc v) -> reachable v (turned (nr v) (nc v) c s) ->
  exists r, rotate v c s def = Ok r /\ moved Bilinear def v (turned (nr v) (nc v) c s) r.
Proof.
  intros v c s def W F Re. unfold rotate. apply moved_ok; try assumption; [discriminate|]. intros y x Hy Hx.
  exists (turned_y v c s y x, turned_x v c s y x). split; [|reflexivity].
  unfold turned_y, turned_x, turned. split; cbn [fst snd]; rewrite !from_mid_ok, qn_mid; ring.
Qed.
Print Assumptions C97_rotate.
(* the angle of cosine 3/5 and sine 4/5 *)
Example C97_rotate_ex : omap seen (rotate ramp34 (3#5) (4#5) None)
  = Ok [None; Some 43; Some 22; None; None; Some 68; Some 48; Some 27; None; None; Some 73; None]%Z.
Proof. vm_compute. reflexivity. Qed.
Theorem C97_rotate_bicubic : forall v c s def, wf v -> fits (nr v) (nc v) -> not_thin v -> reachable v (turned (nr v) (nc v) c s) ->
  exists r, rotate_bicubic v c s def = Ok r /\ moved Bicubic def v (turned (nr v) (nc v) c s) r.
Proof.
  intros v c s def W F Th Re. unfold rotate_bicubic. apply moved_ok; try assumption; [intros _; exact Th|]. intros y x Hy Hx.
  exists (turned_y v c s y x, turned_x v c s y x). split; [|reflexivity].
  unfold turned_y, turned_x, turned. split; cbn [fst snd]; rewrite !from_mid_ok, qn_mid; ring.
Qed.
Print Assumptions C97_rotate_bicubic.
Example C97_rotate_bicubic_ex : exists q,
  omap (fun r => px r 1 3) (rotate_bicubic (Img 4 4 (map (fun k => Some (inject_Z (Z.of_nat k))) (seq 0 16))) 0 1 None) = Ok (Some (Some q)) /\ q == 5.
Proof. eexists. split; [vm_compute; reflexivity|]. apply Qeq_bool_iff. vm_compute. reflexivity. Qed.
(* Finding: the bicubic rotation of an image of a single line reads outside of it. *)
Theorem C97_rotate_single_UB : rotate_bicubic (Img 1 8 (repeat (Some 1) 8)) (3#5) (4#5) None = UB.
Proof. vm_compute. reflexivity. Qed.
Print Assumptions C97_rotate_single_UB.

(* A quarter of a turn: a copy. *)
Theorem C97_quarter : forall v def, wf v -> fits (nr v) (nc v) -> all_finite v ->
  reachable v (turned (nr v) (nc v) 0 1) ->
  let h := (Z.of_nat (nr v) / 2)%Z in let w := (Z.of_nat (nc v) / 2)%Z in
  exists r, rotate v 0 1 def = Ok r /\ copies v r def (fun y x => (h - (x - w), w + (y - h))%Z).
Proof.
  intros v def W F Fi Re h w. destruct (C97_rotate v _ _ def W F Re) as (r & E & M). exists r. split; [exact E|].
  eapply moved_int; [exact Fi|exact M|]. intros y x. unfold turned, mid. fold h w.
  split; cbn [fst snd]; unfold Z.sub; rewrite ?inject_Z_plus, ?inject_Z_opp, ?inject_Z_plus, ?inject_Z_opp; ring.
Qed.
Print Assumptions C97_quarter.
Example C97_quarter_ex : omap seen (rotate (Img 3 3 (map (fun k => Some (inject_Z (Z.of_nat k))) (seq 0 9))) 0 1 None)
  = Ok [None; Some 24; Some 0; None; Some 32; Some 8; None; None; None]%Z.
Proof. vm_compute. reflexivity. Qed.
(* The middle pixel is fixed by scalings and rotations of images of at least 3 lines and columns. *)
Theorem C97_middle : forall v r def, wf v -> all_finite v -> (3 <= nr v)%nat -> (3 <= nc v)%nat ->
  ((exists f, ~ f == 0 /\ moved Bilinear def v (shrunk (nr v) (nc v) f) r) \/
   (exists c s, moved Bilinear def v (turned (nr v) (nc v) c s) r)) ->
  let i := (Z.of_nat (nr v) / 2)%Z in let j := (Z.of_nat (nc v) / 2)%Z in
  exists a b, px v i j = Some (Some a) /\ px r i j = Some (Some b) /\ a == b.
Proof.
  intros v r def W Fi H1 H2 H i j.
  assert (Ti : (0 <= i /\ i + 1 < Z.of_nat (nr v))%Z) by (unfold i; split; [apply Z.div_pos; lia|pose proof (Z.div_lt_upper_bound (Z.of_nat (nr v)) 2 (Z.of_nat (nr v) - 1)); lia]).
  assert (Tj : (0 <= j /\ j + 1 < Z.of_nat (nc v))%Z) by (unfold j; split; [apply Z.div_pos; lia|pose proof (Z.div_lt_upper_bound (Z.of_nat (nc v)) 2 (Z.of_nat (nc v) - 1)); lia]).
  assert (O : on_image (nr v) (nc v) j i) by (split; lia).
  assert (K : exists p q, peq p (inject_Z i, inject_Z j) /\ value_at Bilinear def v p q /\ px r i j = Some q).
  { destruct H as [(f & Hf & S & M)|(c & s & S & M)]; destruct (M i j O) as (p & q & [E1 E2] & V & E); exists p, q; (split; [|auto]);
      split; cbn [fst snd]; unfold shrunk, turned, mid in *; cbn [fst snd] in *; fold i j in E1, E2; [rewrite E1|rewrite E2|rewrite E1|rewrite E2]; try ring; field; exact Hf. }
  destruct K as (p & q & Ep & V & E). pose proof (linear_int def v p i j q Fi Ep V) as L.
  assert (B : ((0 <=? i) && (i + 1 <? Z.of_nat (nr v)) && (0 <=? j) && (j + 1 <? Z.of_nat (nc v)))%Z%bool = true) by lia.
  rewrite B in L. destruct L as (a & P & Q). destruct (Fi i j O) as (a' & P'). rewrite P' in P. injection P as <-.
  destruct q as [b|]; [|destruct Q]. exists a', b. split; [exact P'|]. split; [exact E|]. symmetry. exact Q.
Qed.
Print Assumptions C97_middle.
Example C97_middle_ex : exists q, omap (fun r => px r 1 2) (rotate ramp34 (3#5) (4#5) None) = Ok (Some (Some q)) /\ q == 6.
Proof. eexists. split; [vm_compute; reflexivity|]. reflexivity. Qed.
(* Finding: in an image of two lines even the middle pixel is lost. *)
Theorem C97_middle_refuted : exists v r, nr v = 2%nat /\ nc v = 2%nat /\ scale v 2 None = Ok r /\
  px v 1 1 = Some (Some 4) /\ px r 1 1 = Some None.
Proof. exists (Img 2 2 [Some 1; Some 2; Some 3; Some 4]). eexists. split; [reflexivity|]. split; [reflexivity|]. split; [vm_compute; reflexivity|]. split; reflexivity. Qed.
Print Assumptions C97_middle_refuted.

(* Whatever the movement, bilinear values stay in the range of the image, or are the default. *)
Theorem C97_between : forall v T r def lo hi, moved Bilinear def v T r ->
  (forall i j a, px v i j = Some (Some a) -> lo <= a /\ a <= hi) ->
  forall y x q, on_image (nr v) (nc v) x y -> px r y x = Some (Some q) -> (lo <= q /\ q <= hi) \/ def = Some q.
Proof.
  intros v T r def lo hi (S & M) H y x q O E. destruct (M y x O) as (p & q' & _ & V & E'). rewrite E in E'. injection E' as <-.
  destruct V as (i & j & [Ci1 Ci2] & [Cj1 Cj2] & C).
  destruct C as [(_ & a & b & c & d & q' & P1 & P2 & P3 & P4 & Eq & Hq)|[(_ & _ & Eq)|(_ & Eq)]]; [|discriminate|right; symmetry; exact Eq].
  left. injection Eq as <-. apply H in P1. apply H in P2. apply H in P3. apply H in P4.
  assert (Mi : forall u a b, 0 <= u -> u <= 1 -> lo <= a /\ a <= hi -> lo <= b /\ b <= hi -> lo <= mix u a b /\ mix u a b <= hi).
  { clear. intros u a b U1 U2 [A1 A2] [B1 B2]. unfold mix.
    assert (X1 := Qmult_le_0_compat (1 - u) (a - lo)). assert (X2 := Qmult_le_0_compat u (b - lo)).
    assert (X3 := Qmult_le_0_compat (1 - u) (hi - a)). assert (X4 := Qmult_le_0_compat u (hi - b)).
    assert (Y1 : 0 <= (1 - u) * (a - lo)) by (apply X1; lra). assert (Y2 : 0 <= u * (b - lo)) by (apply X2; lra).
    assert (Y3 : 0 <= (1 - u) * (hi - a)) by (apply X3; lra). assert (Y4 : 0 <= u * (hi - b)) by (apply X4; lra).
    split; lra. }
  rewrite Hq. apply Mi; [lra|lra|apply Mi; [lra|lra|exact P1|exact P2]|apply Mi; [lra|lra|exact P3|exact P4]].
Qed.
Print Assumptions C97_between.

(* Translation by splines: splines through whole lines, then through whole columns. *)
Theorem C97_translate_bicubic : forall v dy dx def, wf v -> (2 <= nr v)%nat -> (2 <= nc v)%nat -> all_finite v ->
  reachable v (slid dy dx) -> exists r, translate_bicubic v dy dx def = Ok r /\ bispline v dy dx r.
Proof.
  intros v dy dx def W H1 H2 Fi Re.
  set (f := fun i j => match px v (Z.of_nat i) (Z.of_nat j) with Some (Some a) => a | _ => 0 end).
  apply (bispline_ok v dy dx def f W H1 H2).
  - intros i j Hi Hj. unfold f. destruct (Fi (Z.of_nat i) (Z.of_nat j)) as (a & E); [split; lia|]. rewrite E. reflexivity.
  - intros i Hi. destruct (mod_split _ (Re (Z.of_nat i) 0%Z ltac:(split; lia))) as [K _]. exact K.
  - intros j Hj. destruct (mod_split _ (Re 0%Z (Z.of_nat j) ltac:(split; lia))) as [_ K]. exact K.
Qed.
Print Assumptions C97_translate_bicubic.
Example C97_translate_bicubic_ex : exists q,
  omap (fun r => px r 1 1) (translate_bicubic (Img 2 3 (map (fun k => Some (inject_Z k)) [0; 1; 0; 2; 4; 2]%Z)) 0 (1#2) None) = Ok (Some (Some q)) /\ q == 27#8.
Proof. eexists. split; [vm_compute; reflexivity|]. apply Qeq_bool_iff. vm_compute. reflexivity. Qed.
(* By nothing: the whole image this time. *)
Theorem C97_bispline_zero : forall v r, (2 <= nr v)%nat -> (2 <= nc v)%nat -> bispline v 0 0 r ->
  forall y x, on_image (nr v) (nc v) x y -> exists a b, px v y x = Some (Some a) /\ px r y x = Some (Some b) /\ a == b.
Proof.
  intros v r H1 H2 (S & f & g & h & H) y x [Hx Hy].
  assert (A : forall n F j q, (j <= n)%nat -> (1 <= n)%nat -> natural_value n unit_node F (unit_node j - 0) q -> q == F j).
  { intros n F j q Hj Hn (b & c & d & (Th & N) & Sp).
    apply (SplineProofs4.spline_at_fun n unit_node F b c d (unit_node j - 0)); [apply SplineProofs4.unit_ordered|exact Sp|].
    assert (E : unit_node j - 0 == unit_node j) by ring.
    destruct (Nat.eq_dec j n) as [->|Ne].
    - right. right. split; [rewrite E; apply Qle_refl|]. rewrite E. ring.
    - right. left. exists j. split; [lia|]. split; [rewrite E; apply Qle_refl|]. split; [rewrite E; apply SplineProofs4.unit_ordered with (n := n); lia|].
      unfold cubic. rewrite E. ring. }
  destruct (H (Z.to_nat y) (Z.to_nat x) ltac:(lia) ltac:(lia)) as (P & N1 & N2 & R). rewrite !Z2Nat.id in P, R by lia.
  exists (f (Z.to_nat y) (Z.to_nat x)), (h (Z.to_nat y) (Z.to_nat x)). split; [exact P|]. split; [exact R|].
  apply A in N1; [|lia|lia]. apply A in N2; [|lia|lia]. rewrite N2, N1. reflexivity.
Qed.
Print Assumptions C97_bispline_zero.
Example C97_bispline_zero_ex : omap seen (translate_bicubic (Img 2 3 (map (fun k => Some (inject_Z k)) [0; 1; 0; 2; 4; 2]%Z)) 0 0 None)
  = Ok [Some 0; Some 8; Some 0; Some 16; Some 32; Some 16]%Z.
Proof. vm_compute. reflexivity. Qed.
(* Finding: the default value is not used; what comes from outside of the image is extrapolated. *)
Theorem C97_default_refuted : exists v r, translate_bicubic v 1 0 (Some 7) = Ok r /\
  translate v 1 0 (Some 7) <> Ok r /\ omap (fun r => px r 0 0) (translate v 1 0 (Some 7)) = Ok (Some (Some 7)) /\
  exists q, px r 0 0 = Some (Some q) /\ q == -1.
Proof.
  exists (Img 2 2 [Some 1; Some 2; Some 3; Some 4]). eexists. split; [vm_compute; reflexivity|].
  split; [vm_compute; discriminate|]. split; [vm_compute; reflexivity|]. eexists. split; [reflexivity|]. reflexivity.
Qed.
Print Assumptions C97_default_refuted.
(* Finding: a single pixel that is not finite makes the whole result of the translation by splines
   not finite, even if the translation is by nothing. *)
Theorem C97_spread_undefined : forall v dy dx def i j, wf v -> (2 <= nr v)%nat -> (2 <= nc v)%nat ->
  reachable v (slid dy dx) -> px v i j = Some None ->
  exists r, translate_bicubic v dy dx def = Ok r /\ shows r (nr v) (nc v) (fun _ _ => Some None).
Proof.
  intros v dy dx def i j W H1 H2 Re N. destruct (px_inv _ _ _ _ N) as (Hi & Hj & _).
  set (f := fun i j => match px v (Z.of_nat i) (Z.of_nat j) with Some a => a | _ => None end).
  apply (bispline_none v dy dx def f (Z.to_nat i) (Z.to_nat j) W H1 H2); [| | |lia|lia|].
  - intros a b Ha Hb. unfold f. destruct (px_some v (Z.of_nat a) (Z.of_nat b) W) as (q & ->); [lia|lia|reflexivity].
  - intros a Ha. destruct (mod_split _ (Re (Z.of_nat a) 0%Z ltac:(split; lia))) as [K _]. exact K.
  - intros b Hb. destruct (mod_split _ (Re 0%Z (Z.of_nat b) ltac:(split; lia))) as [_ K]. exact K.
  - unfold f. rewrite !Z2Nat.id by lia. rewrite N. reflexivity.
Qed.
Print Assumptions C97_spread_undefined.
Example C97_spread_ex : omap seen (translate_bicubic (Img 2 2 [Some 1; Some 2; None; Some 4]) 0 0 None) = Ok [None; None; None; None].
Proof. vm_compute. reflexivity. Qed.
(* Images of a single column stop the translation by splines. *)
Theorem C97_thin : forall v dy dx def, wf v -> (1 <= nr v)%nat -> nc v = 1%nat ->
  translate_bicubic v dy dx def = CheckFail.
Proof.
  intros v dy dx def W H1 E. unfold translate_bicubic. cbv zeta. rewrite E. unfold wf in W. rewrite E in W.
  destruct (nr v) as [|n]; [lia|]. cbn [seq ofold omapl]. destruct (pix v) as [|a l] eqn:P; [cbn in W; lia|].
  cbn [oget nth_error Nat.mul Nat.add obind]. rewrite row_short by (cbn; lia). reflexivity.
Qed.
Print Assumptions C97_thin.
Example C97_thin_ex : translate_bicubic (Img 3 1 [Some 1; Some 2; Some 3]) 1 0 None = CheckFail /\
  translate_bicubic (Img 1 3 [Some 1; Some 2; Some 3]) 1 0 None = CheckFail.
Proof. split; vm_compute; reflexivity. Qed.
