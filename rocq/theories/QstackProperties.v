(* C85: cutouts of sources and their combination over several images. *)
From Coq Require Import QArith Qround Qabs Lqa.
From Verif Require Import Base GenModel QstackModel QstackSpec QstackProofs QstackProofs2 QstackProofs3 QstackProofs4 QstackProofs5.
Local Open Scope nat_scope.

(* the centre of a window is the pixel closest to the position *)
Theorem C85_centre : forall x c, closest_integer x c <-> c = qround x.
Proof. exact closest_iff. Qed.
Print Assumptions C85_centre.
(* the offsets returned are from this pixel to the position *)
Theorem C85_offset : forall x c, closest_integer x c -> (offset x == x - inject_Z c)%Q.
Proof. intros x c H. apply closest_iff in H. subst c. reflexivity. Qed.
Print Assumptions C85_offset.

(* the cutout of a source is the window around the pixel closest to it, continued with bad pixels
   outside of the image; sources of which the window does not touch the image are discarded *)
Theorem C85_cutout : forall A h nsrc (im : image A) i cx cy, good_image h nsrc im -> centre im i cx cy ->
  cutout h im i = Ok (if touches h im cx cy then Some (window h im cx cy) else None).
Proof.
  intros A h nsrc im i cx cy (W & H & _ & _ & Fx & Fy) (x & y & Ex & Ey & Cx & Cy).
  apply closest_iff in Cx. apply closest_iff in Cy. subst.
  pose proof (proj1 (Forall_forall _ _) Fx x (nth_error_In _ _ Ex)) as [Rx Mx].
  pose proof (proj1 (Forall_forall _ _) Fy y (nth_error_In _ _ Ey)) as [Ry My].
  now apply cutout_ok.
Qed.
Print Assumptions C85_cutout.
(* row i and column j of the window *)
Theorem C85_window : forall A h (im : image A) cx cy, length (window h im cx cy) = (2 * h + 1) * (2 * h + 1) /\
  forall i j, i < 2 * h + 1 -> j < 2 * h + 1 ->
  nth_error (window h im cx cy) (i * (2 * h + 1) + j) =
    Some (pixel_at im (cx - Z.of_nat h + Z.of_nat j) (cy - Z.of_nat h + Z.of_nat i)).
Proof. intros. split; [apply window_length|]. intros. now apply window_nth. Qed.
Print Assumptions C85_window.

(* stacking: after what was there, one plane for every source with at least one usable cutout, in the
   order in which they are found, with its number, its offsets and the image where it is found first *)
Theorem C85_qstack : forall A h keep_nan offsets sections (imgs : list (image A)) nsrc d1 d2 cube0 ids0,
  Forall (good_image h nsrc) imgs -> length cube0 = length ids0 ->
  (cube0 <> [] -> d1 = 2 * h + 1 /\ d2 = 2 * h + 1) ->
  exists s, qstack h keep_nan offsets sections imgs nsrc d1 d2 cube0 ids0 = Ok s /\
    let P := found_pairs h keep_nan imgs nsrc in
    ids s = ids0 ++ map snd P /\
    planes s = cube0 ++ map (fun '(_, i) => overlay (sourcecuts h keep_nan imgs i)) P /\
    dims1 s = 2 * h + 1 /\ dims2 s = 2 * h + 1 /\
    osect s = (if sections then map fst P else []) /\
    odx s = (if offsets then flat_map (fun '(k, i) => offset_x imgs k i) P else []) /\
    ody s = (if offsets then flat_map (fun '(k, i) => offset_y imgs k i) P else []).
Proof. intros. eexists. split; [apply qstack_ok; assumption|]. repeat split. Qed.
Print Assumptions C85_qstack.
(* no source is there twice, and all those with a usable cutout are there *)
Theorem C85_sources : forall A h keep_nan (imgs : list (image A)) nsrc,
  NoDup (map snd (found_pairs h keep_nan imgs nsrc)) /\
  forall i, i < nsrc -> (In i (map snd (found_pairs h keep_nan imgs nsrc)) <->
    exists im, In im imgs /\ sourcecut h keep_nan im i <> None).
Proof. intros. split; [apply found_NoDup|]. intros. now apply found_In. Qed.
Print Assumptions C85_sources.
(* every pixel of the plane is the first finite one among the cutouts, in the order of the images *)
Theorem C85_overlay : forall A h keep_nan (imgs : list (image A)) i p, sourcecuts h keep_nan imgs i <> [] ->
  p < (2 * h + 1) * (2 * h + 1) ->
  nth_error (overlay (sourcecuts h keep_nan imgs i)) p =
    Some (first_finite (map (fun c => nth p c None) (sourcecuts h keep_nan imgs i))).
Proof.
  intros A h kn imgs i p N P. apply overlay_nth with ((2 * h + 1) * (2 * h + 1)); [|exact N|exact P].
  pose proof (cuts_length h kn imgs (length imgs) i) as L. unfold cuts in L. rewrite firstn_all in L. exact L.
Qed.
Print Assumptions C85_overlay.

(* the version with weights: the planes of both cubes and the numbers belong to the same sources *)
Theorem C85_weights : forall A h keep_nan offsets sections (im : image A) wpix nsrc cube wcube ids,
  good_image h nsrc im ->
  let l := weighted h keep_nan im wpix nsrc in
  qstack_weights h keep_nan offsets sections im wpix nsrc cube wcube ids =
  Ok (cube ++ flat_map (fun i => map fst (opt_list (pair_of_cuts h keep_nan im wpix i))) (seq 0 nsrc),
      wcube ++ flat_map (fun i => map snd (opt_list (pair_of_cuts h keep_nan im wpix i))) (seq 0 nsrc),
      ids ++ l,
      (if offsets then flat_map (fun i => offset_x [im] 0 i) l else []),
      (if offsets then flat_map (fun i => offset_y [im] 0 i) l else []),
      (if sections then map (fun _ => 0) l else [])).
Proof. intros. apply weights_ok. assumption. Qed.
Print Assumptions C85_weights.

(* Finding: round() goes away from 0, so that around a position half way between two pixels and less than
   hsize away from 0 there are 2*hsize+2 pixels between p0 and p1: stacking a source close to the left edge
   (likewise the bottom one) aborts, as the copy goes out of the cutout *)
Theorem C85_half_pixel_aborts : forall A h (im : image A) i x y k,
  nth_error (px im) i = Some x -> nth_error (py im) i = Some y ->
  (x == inject_Z k + (1 # 2))%Q -> (- inject_Z (Z.of_nat h) < x < inject_Z (Z.of_nat h))%Q -> moderate h x ->
  (1 <= height im)%Z -> regular h y -> moderate h y -> (k + Z.of_nat h + 1 <= width im)%Z ->
  touches h im (qround x) (qround y) = true ->
  cutout h im i = CheckFail.
Proof. intros A h im i x y k. apply half_aborts. Qed.
Print Assumptions C85_half_pixel_aborts.
(* Finding: pixels are numbered from 1, the bounds are compared as if they were numbered from 0: a source
   of which the window only touches the last column is discarded *)
Theorem C85_last_column_refuted : exists (im : image nat) i cx cy, good_image 1 1 im /\ centre im i cx cy /\
  In (Some 7) (window 1 im cx cy) /\ cutout 1 im i = Ok None.
Proof.
  exists (Image 5 5 (fun _ _ => Some 7) [inject_Z 6] [inject_Z 3]), 0, 6%Z, 3%Z.
  split; [|split].
  - split; [cbn; lia|]. split; [cbn; lia|]. split; [reflexivity|]. split; [reflexivity|].
    split; (constructor; [split; [apply integer_regular|reflexivity]|constructor]).
  - exists (inject_Z 6), (inject_Z 3). repeat split; try reflexivity; discriminate.
  - split; [vm_compute; auto|reflexivity].
Qed.
Print Assumptions C85_last_column_refuted.
(* Finding: with weights, a source of which the window ends at the last column is discarded although it is
   covered *)
Theorem C85_weights_covered_refuted : exists (im : image nat), good_image 1 1 im /\ centre im 0 4 3 /\
  forallb (fun p => negb (bad p)) (window 1 im 4 3) = true /\
  qstack_weights 1 false false false im (fun _ _ => Some 1) 1 [] [] [] = Ok ([], [], [], [], [], []).
Proof.
  exists (Image 5 5 (fun _ _ => Some 7) [inject_Z 4] [inject_Z 3]).
  split; [|split].
  - split; [cbn; lia|]. split; [cbn; lia|]. split; [reflexivity|]. split; [reflexivity|].
    split; (constructor; [split; [apply integer_regular|reflexivity]|constructor]).
  - exists (inject_Z 4), (inject_Z 3). repeat split; try reflexivity; discriminate.
  - split; reflexivity.
Qed.
Print Assumptions C85_weights_covered_refuted.
(* Finding: with sections, only the numbers of sources are compared: the flux of one source is silently
   paired with the weight of another one *)
Theorem C85_weights_sections_refuted : exists (im wim : image nat),
  sourcecut 0 false im 0 = Some [Some 10] /\ sourcecut 0 false wim 0 = None /\
  sourcecut 0 false wim 1 = Some [Some 21] /\
  qstack_weights_sections 0 false false false [im] [wim] 2 [] [] [] = Ok ([[Some 10]], [[Some 21]], [0], [], [], []).
Proof.
  exists (Image 4 4 (fun X _ => if Z.eqb X 2 then None else Some 10) [inject_Z 1; inject_Z 2] [inject_Z 1; inject_Z 1]),
    (Image 4 4 (fun X _ => if Z.eqb X 1 then None else Some 21) [inject_Z 1; inject_Z 2] [inject_Z 1; inject_Z 1]).
  repeat split; vm_compute; reflexivity.
Qed.
Print Assumptions C85_weights_sections_refuted.
(* Finding: with sections and weights, the offsets and the sections asked for are never returned *)
Theorem C85_weights_sections_lost_refuted : forall A h keep_nan offsets sections (imgs wimgs : list (image A)) nsrc cube wcube ids0 r,
  qstack_weights_sections h keep_nan offsets sections imgs wimgs nsrc cube wcube ids0 = Ok r ->
  exists c w i, r = (c, w, i, [], [], []).
Proof.
  intros A h kn o se imgs wimgs nsrc cube wcube ids0 r. unfold qstack_weights_sections.
  destruct (qstack _ _ _ _ _ _ _ _ _ _) as [s| | | |]; cbn [obind]; try discriminate.
  destruct (qstack _ _ _ _ _ _ _ _ _ _) as [w| | | |]; cbn [obind]; try discriminate.
  destruct (check _); cbn [obind]; try discriminate. intros [= <-]. eauto.
Qed.
Print Assumptions C85_weights_sections_lost_refuted.
(* Finding: a cube of another size than the cutouts makes the first source found abort the program *)
Theorem C85_other_size_aborts : forall A h offsets sections k (im : image A) s i cut,
  cutout h im i = Ok (Some cut) -> nth_error (found s) i = Some false -> planes s <> [] ->
  dims1 s <> 2 * h + 1 \/ dims2 s <> 2 * h + 1 ->
  stack_one h true offsets sections k im s i = CheckFail.
Proof.
  intros A h o se k im s i cut C F N D. unfold stack_one. rewrite C. cbn [obind negb andb].
  unfold oget, oset. rewrite F. cbn [obind negb].
  assert (L : i < length (found s)) by (apply nth_error_Some; congruence).
  apply Nat.ltb_lt in L. rewrite L. cbn [obind]. unfold push. destruct (planes s); [contradiction|].
  assert (T : (dims1 s =? 2 * h + 1) && (dims2 s =? 2 * h + 1) = false).
  { destruct (Nat.eqb_spec (dims1 s) (2 * h + 1)), (Nat.eqb_spec (dims2 s) (2 * h + 1)); try reflexivity. lia. }
  rewrite T. reflexivity.
Qed.
Print Assumptions C85_other_size_aborts.

(* Examples: two images of 4 x 3 pixels, three sources *)
Definition ex_a : image Z := Image 4 3 (fun X Y => if Z.eqb X 2 && Z.eqb Y 2 then None else Some (10 * Y + X)%Z) [2.2; 9; 3.9]%Q [1.8; 2; 2]%Q.
Definition ex_b : image Z := Image 4 3 (fun X Y => Some (100 + 10 * Y + X)%Z) [2; 3; -5]%Q [2; 2.4; 2]%Q.
Example C85_ex_found : found_pairs 1 true [ex_a; ex_b] 3 = [(0, 0); (0, 2); (1, 1)].
Proof. reflexivity. Qed.
Example C85_ex_stack : exists s, qstack 1 true true true [ex_a; ex_b] 3 0 0 [] [] = Ok s /\ ids s = [0; 2; 1] /\ osect s = [0; 0; 1] /\
  planes s = [[Some 11; Some 12; Some 13; Some 21; Some 122; Some 23; Some 31; Some 32; Some 33];
              [Some 13; Some 14; None; Some 23; Some 24; None; Some 33; Some 34; None];
              [Some 112; Some 113; Some 114; Some 122; Some 123; Some 124; Some 132; Some 133; Some 134]]%Z.
Proof. eexists. repeat split. Qed.
(* without keep_nan the source at the edge is dropped, and the bad pixel makes source 0 come from the second image *)
Example C85_ex_stack_finite : exists s, qstack 1 false false true [ex_a; ex_b] 3 0 0 [] [] = Ok s /\ ids s = [0; 1] /\ osect s = [1; 1].
Proof. eexists. repeat split. Qed.
Example C85_ex_half : cutout 1 (Image 10 10 (fun X Y => Some (10 * Y + X)%Z) [1 # 2]%Q [5]%Q) 0 = CheckFail.
Proof. reflexivity. Qed.
Example C85_ex_weights : qstack_weights 1 false true true ex_b (fun _ _ => Some 1%Z) 3 [] [] [] = Ok ([], [], [], [], [], []).
Proof. reflexivity. Qed.
Example C85_ex_weights2 : exists c dx dy, qstack_weights 1 false true true
    (Image 5 5 (fun X Y => Some (10 * Y + X)%Z) [3; 2.5; 1]%Q [3; 3; 3]%Q) (fun X _ => Some X) 3 [] [] [] =
  Ok (c, [[Some 2; Some 3; Some 4; Some 2; Some 3; Some 4; Some 2; Some 3; Some 4];
          [Some 2; Some 3; Some 4; Some 2; Some 3; Some 4; Some 2; Some 3; Some 4]]%Z, [0; 1], dx, dy, [0; 0]).
Proof. do 3 eexists. reflexivity. Qed.
