(* C93: the expansion of segments over the whole map. *)
From Coq Require Import NArith ZifyBool ZifyNat.
From Verif Require Import Base IndexModel VecModel ImageModel ImageSpec ImageProofs SegModel SegSpec SegProofs
  SdistModel SdistSpec SdistProofs SdistProofs2.
Local Open Scope nat_scope.

Lemma at_val {A} (dflt : A) n m d p : length d = n * m -> ing n m p -> at_ (Img n m d) p = Some (val m dflt d p).
Proof.
  intros L I. unfold at_, px. cbn [nr nc pix]. destruct I as [A1 A2].
  destruct ((0 <=? Z.of_nat (fst p)) && (Z.of_nat (fst p) <? Z.of_nat n) && (0 <=? Z.of_nat (snd p)) && (Z.of_nat (snd p) <? Z.of_nat m))%Z eqn:E; [|lia].
  rewrite !Nat2Z.id. exact (nth_error_val n m dflt d p L (conj A1 A2)).
Qed.
Lemma member_seg n m map0 p : length map0 = n * m -> (exists id, member (Img n m map0) id p) <-> seg0 n m map0 p.
Proof.
  intro L. split.
  - intros (id & E & N). assert (I : ing n m p).
    { unfold at_, px in E. cbn [nr nc] in E. destruct ((0 <=? Z.of_nat (fst p)) && _ && _ && _)%Z eqn:B in E; [|discriminate].
      split; lia. }
    split; [exact I|]. rewrite (at_val 0 n m map0 p L I) in E. injection E as ->. exact N.
  - intros [I N]. exists (val m 0 map0 p). split; [apply at_val; assumption|exact N].
Qed.
Lemma member_val n m map0 p id : length map0 = n * m -> member (Img n m map0) id p -> seg0 n m map0 p /\ id = val m 0 map0 p.
Proof.
  intros L M. assert (S0 : seg0 n m map0 p) by (apply member_seg; [exact L|exists id; exact M]). split; [exact S0|].
  destruct M as [E _]. rewrite (at_val 0 n m map0 p L (proj1 S0)) in E. congruence.
Qed.

Lemma v_eq (v : img nat) : v = Img (nr v) (nc v) (pix v).
Proof. destruct v; reflexivity. Qed.

Section Result.
Context (v : img nat) (Wv : wf v) (Fv : fits (nr v) (nc v)).
Context (rm : img nat) (rd : img (option Z)) (ri : img (option nat)) (E : segment_distance v = Ok (rm, rd, ri)).
Lemma result : exists mp d i, rm = Img (nr v) (nc v) mp /\ rd = Img (nr v) (nc v) d /\ ri = Img (nr v) (nc v) i /\
  core (nr v) (nc v) (pix v) mp d i /\ (forall t, seg0 (nr v) (nc v) (pix v) t -> val (nc v) None d t = Some 0%Z) /\
  settled (nr v) (nc v) (pix v) d i (fun _ => False).
Proof.
  destruct (distance_ok (nr v) (nc v) (pix v) Wv Fv) as (mp & d & i & E' & C & Z0 & St).
  assert (Ev : Img (nr v) (nc v) (pix v) = v) by (destruct v; reflexivity). rewrite Ev in E'.
  rewrite E in E'. injection E' as E1 E2 E3. exists mp, d, i. split; [exact E1|]. split; [exact E2|]. split; [exact E3|]. split; [exact C|]. split; [exact Z0|exact St].
Qed.
End Result.

(* there always is a result, with the dimensions of the map *)
Theorem C93_total : forall v, wf v -> fits (nr v) (nc v) ->
  exists rm rd ri, segment_distance v = Ok (rm, rd, ri) /\
    wf rm /\ wf rd /\ wf ri /\ nr rm = nr v /\ nc rm = nc v /\ nr rd = nr v /\ nc rd = nc v /\ nr ri = nr v /\ nc ri = nc v.
Proof.
  intros v Wv Fv. destruct (distance_ok (nr v) (nc v) (pix v) Wv Fv) as (mp & d & i & E & C & _).
  rewrite <- v_eq in E. exists (Img (nr v) (nc v) mp), (Img (nr v) (nc v) d), (Img (nr v) (nc v) i).
  destruct C as [LM LD LI _ _]. unfold wf. cbn [nr nc pix]. auto 12.
Qed.
Print Assumptions C93_total.

(* the segments are kept, at distance 0 of themselves *)
Theorem C93_segments : forall v rm rd ri, wf v -> fits (nr v) (nc v) -> segment_distance v = Ok (rm, rd, ri) ->
  forall id p, member v id p ->
  at_ rm p = Some id /\ at_ rd p = Some (Some 0%Z) /\ at_ ri p = Some (Some (fst p * nc v + snd p)).
Proof.
  intros v rm rd ri Wv Fv E id p M. destruct (result v Wv Fv rm rd ri E) as (mp & d & i & -> & -> & -> & C & Z0 & St).
  rewrite (v_eq v) in M. destruct (member_val _ _ _ _ _ Wv M) as [Sp ->].
  rewrite (at_val 0), (at_val None), (at_val None); try exact (proj1 Sp); try (apply C).
  rewrite (c_seg _ _ _ _ _ _ C p Sp), (Z0 p Sp). split; [reflexivity|]. split; [reflexivity|].
  destruct (c_pix _ _ _ _ _ _ C p (proj1 Sp)) as [(X & _)|(q & Sq & Ei & Ed & _)]; [rewrite (Z0 p Sp) in X; discriminate|].
  rewrite (Z0 p Sp) in Ed. injection Ed as Ed. symmetry in Ed. apply dist2_zero in Ed. subst q. rewrite Ei. reflexivity.
Qed.
Print Assumptions C93_segments.

(* imap holds the index of a pixel of a segment, and dmap its squared distance; when the map has a
   segment, every pixel has one, not farther than any pixel of a segment is along rows and columns *)
Theorem C93_distance : forall v rm rd ri, wf v -> fits (nr v) (nc v) -> segment_distance v = Ok (rm, rd, ri) ->
  forall id s p, member v id s -> inside v p ->
  exists idq q, member v idq q /\ at_ ri p = Some (Some (fst q * nc v + snd q)) /\ at_ rd p = Some (Some (dist2 p q)) /\
    (dist2 p q <= steps p s * steps p s)%Z.
Proof.
  intros v rm rd ri Wv Fv E id s p M Ip. destruct (result v Wv Fv rm rd ri E) as (mp & d & i & -> & -> & -> & C & Z0 & St).
  rewrite (v_eq v) in M. destruct (member_val _ _ _ _ _ Wv M) as [Ss _].
  assert (Hs : (0 <= steps p s)%Z) by (unfold steps; lia).
  destruct (reach _ _ _ Wv (Z.to_nat (steps p s)) p s mp d i C St Z0 Ip Ss ltac:(lia)) as (z & Ez & Hz).
  destruct (c_pix _ _ _ _ _ _ C p Ip) as [(X & _)|(q & Sq & Ei & Ed & _)]; [congruence|].
  exists (val (nc v) 0 (pix v) q), q. split; [|split; [|split]].
  - rewrite (v_eq v) at 1. split; [apply at_val; [exact Wv|exact (proj1 Sq)]|exact (proj2 Sq)].
  - rewrite (at_val None); [rewrite Ei; reflexivity|apply C|exact Ip].
  - rewrite (at_val None); [rewrite Ed; reflexivity|apply C|exact Ip].
  - assert (z = dist2 p q) by congruence. subst z. rewrite Z2Nat.id in Hz by exact Hs. exact Hz.
Qed.
Print Assumptions C93_distance.

(* in particular the distance is exact when the nearest pixel of all segments is on the same row or column *)
Theorem C93_aligned : forall v rm rd ri, wf v -> fits (nr v) (nc v) -> segment_distance v = Ok (rm, rd, ri) ->
  forall id s p, member v id s -> inside v p -> fst s = fst p \/ snd s = snd p ->
  (forall idt t, member v idt t -> (dist2 p s <= dist2 p t)%Z) -> at_ rd p = Some (Some (dist2 p s)).
Proof.
  intros v rm rd ri Wv Fv E id s p M Ip Al Near.
  destruct (C93_distance v rm rd ri Wv Fv E id s p M Ip) as (idq & q & Mq & _ & -> & B).
  pose proof (Near idq q Mq). assert (X : (steps p s * steps p s = dist2 p s)%Z).
  { unfold steps, dist2. destruct Al as [-> | ->]; cbv zeta; rewrite Z.sub_diag, ?Z.abs_0, ?Z.add_0_l, ?Z.add_0_r; nia. }
  do 2 f_equal. lia.
Qed.
Print Assumptions C93_aligned.

(* every pixel gets the label of a segment *)
Theorem C93_labels : forall v rm rd ri, wf v -> fits (nr v) (nc v) -> segment_distance v = Ok (rm, rd, ri) ->
  forall id s p, member v id s -> inside v p -> exists idt t, member v idt t /\ at_ rm p = Some idt.
Proof.
  intros v rm rd ri Wv Fv E id s p M Ip. destruct (result v Wv Fv rm rd ri E) as (mp & d & i & -> & -> & -> & C & Z0 & St).
  rewrite (v_eq v) in M. destruct (member_val _ _ _ _ _ Wv M) as [Ss _].
  assert (Hs : (0 <= steps p s)%Z) by (unfold steps; lia).
  destruct (reach _ _ _ Wv (Z.to_nat (steps p s)) p s mp d i C St Z0 Ip Ss ltac:(lia)) as (z & Ez & _).
  destruct (c_pix _ _ _ _ _ _ C p Ip) as [(X & _)|(q & Sq & Ei & Ed & t & Stt & Em)]; [congruence|].
  exists (val (nc v) 0 (pix v) t), t. split.
  - rewrite (v_eq v) at 1. split; [apply at_val; [exact Wv|exact (proj1 Stt)]|exact (proj2 Stt)].
  - rewrite (at_val 0); [rewrite Em; reflexivity|apply C|exact Ip].
Qed.
Print Assumptions C93_labels.

(* a map without segment is left alone *)
Theorem C93_empty : forall v rm rd ri, wf v -> fits (nr v) (nc v) -> segment_distance v = Ok (rm, rd, ri) ->
  (forall id p, ~ member v id p) -> forall p, inside v p ->
  at_ rm p = Some 0 /\ at_ rd p = Some None /\ at_ ri p = Some None.
Proof.
  intros v rm rd ri Wv Fv E N p Ip. destruct (result v Wv Fv rm rd ri E) as (mp & d & i & -> & -> & -> & C & Z0 & St).
  assert (N0 : forall q, ~ seg0 (nr v) (nc v) (pix v) q).
  { intros q Sq. apply (member_seg _ _ _ q Wv) in Sq. rewrite <- v_eq in Sq. destruct Sq as [id M]. exact (N id q M). }
  destruct (c_pix _ _ _ _ _ _ C p Ip) as [(X & Y & Z)|(q & Sq & _)]; [|destruct (N0 q Sq)].
  rewrite (at_val 0), (at_val None), (at_val None); try exact Ip; try (apply C). rewrite X, Y, Z. split; [|auto]. f_equal.
  destruct (Nat.eq_dec (val (nc v) 0 (pix v) p) 0) as [E0|E0]; [exact E0|]. destruct (N0 p). split; assumption.
Qed.
Print Assumptions C93_empty.

(* Finding: dmap is said to hold the distance to the nearest segment; it can be larger, because only the
   nearest pixel known to a neighbour is ever tried (at the top right, 9 instead of 8) *)
Theorem C93_distance_refuted : exists v rm rd ri id s p, wf v /\ fits (nr v) (nc v) /\ segment_distance v = Ok (rm, rd, ri) /\
  member v id s /\ inside v p /\ dist2 p s = 8%Z /\ at_ rd p = Some (Some 9%Z).
Proof.
  exists (Img 4 4 [2;0;0;0; 0;0;0;0; 0;4;0;0; 0;0;0;1]). do 3 eexists. exists 4, (2, 1), (0, 3).
  split; [reflexivity|]. split; [unfold fits, two64; cbn [nr nc]; lia|]. split; [vm_compute; reflexivity|].
  split; [split; [reflexivity|discriminate]|]. split; [split; cbn; lia|]. split; reflexivity.
Qed.
Print Assumptions C93_distance_refuted.

(* Finding: a pixel can get the label of another segment than the one in imap, even though it is farther:
   a point waiting to be processed for one segment is processed for it after another one has taken it *)
Theorem C93_label_refuted : exists v rm rd ri p q, wf v /\ fits (nr v) (nc v) /\ segment_distance v = Ok (rm, rd, ri) /\
  inside v p /\ at_ rm p = Some 3 /\ at_ ri p = Some (Some (fst q * nc v + snd q)) /\ member v 4 q /\
  dist2 p q = 5%Z /\ forall t, member v 3 t -> dist2 p t = 9%Z.
Proof.
  exists (Img 4 2 [0;3; 4;0; 0;0; 0;0]). do 3 eexists. exists (3, 1), (1, 0).
  split; [reflexivity|]. split; [unfold fits, two64; cbn [nr nc]; lia|]. split; [vm_compute; reflexivity|].
  split; [split; cbn; lia|]. split; [reflexivity|]. split; [reflexivity|]. split; [split; [reflexivity|discriminate]|].
  split; [reflexivity|]. intros t M. destruct (member_val 4 2 [0;3; 4;0; 0;0; 0;0] t 3 eq_refl M) as [[[A B] _] V]. destruct t as [y x]. cbn [fst snd] in A, B.
  destruct y as [|[|[|[|y]]]]; try lia; destruct x as [|[|x]]; try lia; try discriminate V. reflexivity.
Qed.
Print Assumptions C93_label_refuted.

(* ---- example: two segments in one row ---- *)
Example segment_distance_row :
  segment_distance (Img 1 6 [0;7;0;0;0;9]) =
  Ok (Img 1 6 [7;7;7;7;9;9], Img 1 6 [Some 1; Some 0; Some 1; Some 4; Some 1; Some 0]%Z,
      Img 1 6 [Some 1; Some 1; Some 1; Some 1; Some 5; Some 5]).
Proof. vm_compute. reflexivity. Qed.
