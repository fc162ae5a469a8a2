(* C47 and C60: segmentation of a map. *)
From Verif Require Import Base ImageModel ImageSpec ImageProofs SegModel SegSpec SegProofs SegProofs2 SegProofs3 SegProofs4.

(* label 0 exactly on the zero pixels; two other pixels have the same label iff they are joined by
   a path; the labels are first_id, first_id+1, ... *)
Theorem C47_labels : forall (map_ : img bool) first, wf map_ -> 0 < first -> fits (nr map_) (nc map_) ->
  (Z.of_nat (first + nr map_ * nc map_) < two64)%Z ->
  exists w out, segment map_ 0 first = Ok (w, out) /\ nr w = nr map_ /\ nc w = nc map_ /\ wf w /\
    (forall p, at_ w p = Some 0 <-> at_ map_ p = Some false) /\
    (forall p q, at_ map_ p = Some true -> at_ map_ q = Some true ->
       at_ w p = at_ w q <-> conn (fun r => at_ map_ r = Some true) p q) /\
    map s_id out = seq first (length out) /\
    (forall p, at_ map_ p = Some true -> exists o, In o out /\ at_ w p = Some (s_id o)).
Proof.
  intros map_ first W F FT B. destruct (segment_ok map_ first 0 W F FT B) as (w & out & S & E & _).
  exists w, out. split; [exact E|]. destruct S as [S1 S2 S3 S4 S5 S6 S7 S8]. repeat (split; [assumption|]). exact S7.
Qed.
Print Assumptions C47_labels.

(* each segment has one entry in the output: its origin is its first pixel, and the area is one
   more than the number of pairs of neighbouring pixels, hence at least the number of pixels *)
Theorem C47_output : forall (map_ : img bool) first, wf map_ -> 0 < first -> fits (nr map_) (nc map_) ->
  (Z.of_nat (first + nr map_ * nc map_) < two64)%Z ->
  exists w out, segment map_ 0 first = Ok (w, out) /\
    forall o, In o out -> exists p0, s_origin o = fst p0 * nc map_ + snd p0 /\ at_ w p0 = Some (s_id o) /\
      (forall q, at_ w q = Some (s_id o) -> q = p0 \/ before p0 q) /\
      (exists E, sides (fun p => at_ w p = Some (s_id o)) E /\ s_area o = 1 + length E) /\
      (forall l, lists_pixels (fun p => at_ w p = Some (s_id o)) l -> length l <= s_area o).
Proof.
  intros map_ first W F FT B. destruct (segment_ok map_ first 0 W F FT B) as (w & out & S & E & _).
  exists w, out. split; [exact E|]. apply S.
Qed.
Print Assumptions C47_output.

(* the area is not the number of pixels, and the centre is not the mean position: a block of
   four pixels *)
Definition block := Img 2 2 [true; true; true; true].
Theorem C47_area_refuted : exists o, segment block 0 1 = Ok (Img 2 2 [1; 1; 1; 1], [o]) /\
  s_area o = 5 /\ (s_sx o, s_sy o) = (2, 3).
Proof. eexists. split; [vm_compute; reflexivity|]. vm_compute. auto. Qed.
Print Assumptions C47_area_refuted.

Theorem C47_first_id : forall map_ mn, segment map_ mn 0 = CheckFail.
Proof. reflexivity. Qed.
Print Assumptions C47_first_id.

(* min_area: when some segment has an area below min_area, the segments are counted again, and a
   segment of k pixels, k > 1, counts for k+1 *)
Theorem C47_min_area : forall (map_ : img bool) first mn, wf map_ -> 0 < first -> fits (nr map_) (nc map_) ->
  (Z.of_nat (first + nr map_ * nc map_) < two64)%Z ->
  exists w out, segment map_ 0 first = Ok (w, out) /\
    ((forall o, In o out -> mn <= s_area o) -> segment map_ mn first = Ok (w, out)) /\
    ((exists o, In o out /\ s_area o < mn) -> exists w' drop,
       segment map_ mn first = Ok (w', filter (fun o => negb (drop (s_id o))) out) /\
       nr w' = nr map_ /\ nc w' = nc map_ /\ wf w' /\
       (forall p k, at_ w p = Some k -> at_ w' p = Some (if drop k then 0 else k)) /\
       (forall o, In o out -> forall l, lists_pixels (fun p => at_ w p = Some (s_id o)) l ->
          drop (s_id o) = true <-> (if length l =? 1 then 1 else length l + 1) < mn)).
Proof.
  intros map_ first mn W F FT B. destruct (segment_ok map_ first mn W F FT B) as (w & out & S & E & N & Y).
  exists w, out. split; [exact E|]. split.
  - intros H. apply N. destruct (existsb (fun o => s_area o <? mn) out) eqn:X; [|reflexivity]. exfalso.
    apply existsb_exists in X. destruct X as (o & Ho & L). apply Nat.ltb_lt in L. specialize (H o Ho). lia.
  - intros (o & Ho & L). apply Y. apply existsb_exists. exists o. split; [exact Ho|]. apply Nat.ltb_lt. exact L.
Qed.
Print Assumptions C47_min_area.
(* so a segment of three pixels survives min_area = 4 *)
Theorem C47_min_area_refuted : exists o, segment (Img 1 3 [true; true; true]) 4 1 = Ok (Img 1 3 [1; 1; 1], [o]).
Proof. eexists. vm_compute. reflexivity. Qed.
Print Assumptions C47_min_area_refuted.

Example C47_ex : segment (Img 3 4 [true;false;true;true; true;false;false;true; false;true;false;false]) 0 7 =
  Ok (Img 3 4 [7;0;8;8; 7;0;0;8; 0;9;0;0],
      [Seg 7 2 0 1 0; Seg 8 3 8 1 2; Seg 9 1 1 2 9]).
Proof. vm_compute. reflexivity. Qed.
Example C47_ex2 : segment (Img 3 4 [true;false;true;true; true;false;false;true; false;true;false;false]) 3 7 =
  Ok (Img 3 4 [7;0;8;8; 7;0;0;8; 0;0;0;0],
      [Seg 7 2 0 1 0; Seg 8 3 8 1 2]).
Proof. vm_compute. reflexivity. Qed.

(* ---- C60: foreach_segment ---- *)
(* for each seed the function receives the position of the seed, and then, once each, the pixels
   of its segment that have a neighbour in the segment *)
Theorem C60_foreach_segment : forall (sm : img nat) (seeds : list (nat * nat)), wf sm ->
  (forall p, In p seeds -> exists k, at_ sm p = Some k /\ k <> 0) ->
  NoDup (map (at_ sm) seeds) ->
  exists rests, segments (nr sm) (nc sm) (pix sm) (map (fun p => fst p * nc sm + snd p) seeds) =
      Ok (map (fun pr => map (fun p => fst p * nc sm + snd p) (fst pr :: snd pr)) (combine seeds rests)) /\
    Forall2 (fun s0 rest => NoDup rest /\
      let same := fun p => at_ sm p = at_ sm s0 in
      forall p, In p rest <-> conn same s0 p /\ exists q, conn same s0 q /\ adj q p) seeds rests.
Proof.
  intros sm seeds W HS ND. destruct (segments_ok (nr sm) (nc sm) (pix sm) W seeds) as (rests & E & L & F).
  - intros p Hp. destruct (HS p Hp) as (k & A & N). apply (at_some 0 sm p k W) in A. destruct A as (I & V). split; [exact I|congruence].
  - assert (EQ : map (at_ sm) seeds = map Some (map (val (nc sm) 0 (pix sm)) seeds)).
    { rewrite map_map. apply map_ext_in. intros p Hp. destruct (HS p Hp) as (k & A & _). rewrite A.
      apply (at_some 0 sm p k W) in A. destruct A as (_ & <-). reflexivity. }
    rewrite EQ in ND. apply NoDup_map_inv in ND. exact ND.
  - exists rests. split; [etransitivity; [exact E|reflexivity]|]. clear E L ND.
    induction F as [|s0 rest seeds rests (ND & HR) F IH]; constructor; [|apply IH; intros p Hp; apply HS; right; exact Hp].
    split; [exact ND|]. cbn beta zeta.
    destruct (HS s0 (or_introl eq_refl)) as (k & A & _). pose proof A as A'. apply (at_some 0 sm s0 k W) in A'. destruct A' as (I0 & V0).
    assert (MM : forall p, M (nr sm) (nc sm) (pix sm) (val (nc sm) 0 (pix sm) s0) p <-> at_ sm p = at_ sm s0).
    { intros p. rewrite A, (at_some 0 sm p k W). unfold M. rewrite V0. reflexivity. }
    intros p. rewrite HR, (conn_iff _ _ s0 p MM). split; intros (C & q & Cq & Aq); (split; [exact C|]); exists q;
      (split; [|exact Aq]); apply (conn_iff _ _ s0 q MM); exact Cq.
Qed.
Print Assumptions C60_foreach_segment.
(* the number of positions: one more than the number of pixels as soon as there are two pixels *)
Theorem C60_seed_twice : forall (sm : img nat) s0 rest l k, at_ sm s0 = Some k ->
  let same := fun p => at_ sm p = at_ sm s0 in
  NoDup rest -> (forall p, In p rest <-> conn same s0 p /\ exists q, conn same s0 q /\ adj q p) ->
  lists_pixels (conn same s0) l -> 1 + length rest = if length l =? 1 then 1 else length l + 1.
Proof. intros sm s0 rest l k A same. apply rest_length. reflexivity. Qed.
Print Assumptions C60_seed_twice.
Theorem C60_once_refuted : segments 1 2 [3; 3] [0] = Ok [[0; 1; 0]].
Proof. vm_compute. reflexivity. Qed.
Print Assumptions C60_once_refuted.
Example C60_ex : segments 2 3 [3;3;4; 0;3;4] [1; 2] = Ok [[1; 4; 0; 1]; [2; 5; 2]].
Proof. vm_compute. reflexivity. Qed.
