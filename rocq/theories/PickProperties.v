(* C129: cutouts of sources. *)
From Coq Require Import QArith Qround Lqa Lia.
From Verif Require Import Base AstwProofs2 FimgProofs BootModel PickModel PickSpec.
Local Open Scope nat_scope.

Definition good {A} (im : img A) : Prop := length (pix im) = m1 im * m2 im.
(* a cube that is empty or has images of that size *)
Definition ready {A} (b : cube A) (h : nat) : Prop :=
  (n0 b = 0 /\ dat b = []) \/ (0 < n0 b /\ n1 b = 2 * h + 1 /\ n2 b = 2 * h + 1 /\ dat b <> []).

Lemma outside_false q h w : outside (At q) h w = false <-> within q h w.
Proof.
  unfold outside, within. change (q_of h) with (whole h). change (q_of w) with (whole w). rewrite Bool.orb_false_iff, Bool.negb_false_iff, Qle_bool_iff. split; intros [H1 H2].
  - split; [lra|]. destruct (Qlt_le_dec (q + whole h) (whole w)) as [|H]; [assumption|]. apply Qle_bool_iff in H. congruence.
  - split; [lra|]. destruct (Qle_bool (whole w) (q + whole h)) eqn:E; [|reflexivity]. apply Qle_bool_iff in E. lra.
Qed.
Lemma outside_true q h w : outside (At q) h w = true <-> ~ within q h w.
Proof. rewrite <- outside_false. destruct (outside (At q) h w); split; congruence. Qed.
Lemma whole_lt a b : (whole a < whole b)%Q <-> a < b.
Proof. unfold whole. rewrite <- Zlt_Qlt. lia. Qed.
Lemma whole_add a b : (whole (a + b) == whole a + whole b)%Q.
Proof. unfold whole. rewrite Nat2Z.inj_add, inject_Z_plus. reflexivity. Qed.
Lemma whole_half a b : (whole a < whole b + (1 # 2))%Q -> a <= b.
Proof.
  intros H. destruct (Nat.le_gt_cases a b) as [|G]; [assumption|]. exfalso.
  assert (L : (whole (b + 1) <= whole a)%Q) by (unfold whole; rewrite <- Zle_Qle; lia). rewrite whole_add in L. change (whole 1) with 1%Q in L. lra.
Qed.
Lemma nearest_unique q n m : nearest q n -> nearest q m -> n = m.
Proof.
  intros [A B] [C D].
  assert (X : forall a b, (whole a - (1 # 2) < whole b + (1 # 2))%Q -> a <= b).
  { intros a b H. destruct (Nat.le_gt_cases a b) as [|G]; [assumption|]. exfalso.
    assert (L : (whole (b + 1) <= whole a)%Q) by (unfold whole; rewrite <- Zle_Qle; lia). rewrite whole_add in L. change (whole 1) with 1%Q in L. lra. }
  apply Nat.le_antisymm; apply X; lra.
Qed.
Lemma pixel_ok q : (0 <= q)%Q -> exists n, to_pixel (At q) = Ok n /\ nearest q n.
Proof.
  intros H. cbn [to_pixel]. pose proof (Qfloor_le (q + (1 # 2))) as A. pose proof (Qlt_floor (q + (1 # 2))) as B.
  assert (P : (0 <= Qfloor (q + (1 # 2)))%Z).
  { change 0%Z with (Qfloor 0). apply Qfloor_resp_le. lra. }
  exists (Z.to_nat (Qfloor (q + (1 # 2)))). split; [reflexivity|]. unfold nearest, whole. rewrite Z2Nat.id by exact P.
  rewrite inject_Z_plus in B. change (inject_Z 1) with 1%Q in B. split; lra.
Qed.
Lemma whole_nonneg n : (0 <= whole n)%Q.
Proof. unfold whole. change 0%Q with (inject_Z 0). rewrite <- Zle_Qle. lia. Qed.
Lemma within_pixel q h w : within q h w -> exists n, to_pixel (At q) = Ok n /\ nearest q n /\ h < n.
Proof.
  intros [A B]. pose proof (whole_nonneg h). destruct (pixel_ok q ltac:(lra)) as (n & E & N). exists n. split; [exact E|]. split; [exact N|].
  destruct N as [N1 N2]. apply whole_half. rewrite whole_add || idtac. replace (S h) with (h + 1) by lia. rewrite whole_add. change (whole 1) with 1%Q. lra.
Qed.
Lemma cut_ok {A} (im : img A) n m h : good im -> h <= n -> h <= m -> n + h < m1 im -> m + h < m2 im ->
  exists s, cut im n m h = Ok (mk_img (2 * h + 1) (2 * h + 1) s) /\ square (pix im) (m2 im) n m h s.
Proof.
  intros G Hn Hm Ln Lm. unfold cut. rewrite (proj2 (Nat.ltb_lt _ _) Ln), (proj2 (Nat.ltb_lt _ _) Lm). cbn [check obind].
  set (w := 2 * h + 1).
  assert (P : forall k, k < w * w -> exists p, oget (pix im) ((n - h + k / w) * m2 im + (m - h + k mod w)) = Ok p /\ nth_error (pix im) ((n - h + k / w) * m2 im + (m - h + k mod w)) = Some p).
  { intros k K. assert (k / w < w) by (apply Nat.div_lt_upper_bound; lia). assert (k mod w < w) by (apply Nat.mod_upper_bound; lia).
    assert (I : (n - h + k / w) * m2 im + (m - h + k mod w) < length (pix im)) by (rewrite G; nia).
    unfold oget. destruct (nth_error (pix im) _) as [p|] eqn:E; [exists p; split; reflexivity|apply nth_error_None in E; lia]. }
  destruct (omapl_rel (fun k => oget (pix im) ((n - h + k / w) * m2 im + (m - h + k mod w))) (fun k p => nth_error (pix im) ((n - h + k / w) * m2 im + (m - h + k mod w)) = Some p) (seq 0 (w * w))) as (s & E & F).
  { intros k I. apply in_seq in I. apply P. lia. }
  exists s. split; [rewrite E; reflexivity|]. fold w. pose proof (omapl_len _ _ _ E) as L. rewrite seq_length in L. split; [exact L|].
  intros a b Ha Hb. assert (K : a * w + b < w * w) by nia.
  assert (X : nth_error (seq 0 (w * w)) (a * w + b) = Some (a * w + b)).
  { rewrite (nth_error_nth' _ 0) by (rewrite seq_length; exact K). rewrite seq_nth by exact K. reflexivity. }
  destruct (omapl_nth _ _ _ _ _ E X) as (p & Hp & Np). exists p. split; [exact Np|].
  assert (D : (a * w + b) / w = a) by (rewrite Nat.div_add_l, Nat.div_small by lia; lia).
  assert (R : (a * w + b) mod w = b) by (rewrite Nat.add_comm, Nat.mod_add, Nat.mod_small by lia; lia).
  rewrite D, R in Hp. unfold oget in Hp. destruct (nth_error (pix im) _); [congruence|discriminate].
Qed.
Lemma same_nth {A} : forall l l' : list A, (forall k, nth_error l k = nth_error l' k) -> l = l'.
Proof.
  induction l as [|a l IH]; intros [|b l'] H; [reflexivity|discriminate (H 0)|discriminate (H 0)|].
  pose proof (H 0) as E. injection E as ->. f_equal. apply IH. intros k. exact (H (S k)).
Qed.
Lemma square_unique {A} (px : list A) height n m h s s' : square px height n m h s -> square px height n m h s' -> s = s'.
Proof.
  intros [L S] [L' S']. apply same_nth. intros k. set (w := 2 * h + 1) in *.
  destruct (Nat.lt_ge_cases k (w * w)) as [K|K].
  - assert (k / w < w) by (apply Nat.div_lt_upper_bound; lia). assert (k mod w < w) by (apply Nat.mod_upper_bound; lia).
    destruct (S (k / w) (k mod w) ltac:(lia) ltac:(lia)) as (p & E & F). destruct (S' (k / w) (k mod w) ltac:(lia) ltac:(lia)) as (p' & E' & F').
    replace (k / w * w + k mod w) with k in E, E' by (rewrite (Nat.div_mod k w) at 1 by lia; lia). rewrite E, E'. congruence.
  - rewrite !(proj2 (nth_error_None _ _)) by lia. reflexivity.
Qed.

Section Pick.
Context {A : Type}.
Variable finite : A -> bool.
Variable im : img A.
Variables xs ys : list Q.
Variable h : nat.
Hypothesis G : good im.
Hypothesis L : length xs = length ys.
(* source i has a cutout s *)
Definition stamp (i : nat) (s : list A) : Prop :=
  exists qx qy n m, nth_error xs i = Some qx /\ nth_error ys i = Some qy /\ within qx h (m1 im) /\ within qy h (m2 im) /\
    nearest qx n /\ nearest qy m /\ square (pix im) (m2 im) n m h s.
Definition kept (i : nat) : Prop := exists s, stamp i s /\ forall p, In p s -> finite p = true.
(* the cutout of a source that is far enough from the limits is within the image *)
Definition clear (q : Q) (size : nat) : Prop := within q h size -> (q + whole h < whole size - (1 # 2))%Q.
Hypothesis Cx : forall q, In q xs -> clear q (m1 im).
Hypothesis Cy : forall q, In q ys -> clear q (m2 im).

Lemma nearest_fits q n size : clear q size -> within q h size -> nearest q n -> n + h < size.
Proof.
  intros C W [N _]. specialize (C W). apply whole_lt. rewrite whole_add. lra.
Qed.
Lemma stamp_unique i s s' : stamp i s -> stamp i s' -> s = s'.
Proof.
  intros (qx & qy & n & m & X & Y & _ & _ & N & M & S) (qx' & qy' & n' & m' & X' & Y' & _ & _ & N' & M' & S').
  rewrite X in X'. injection X' as <-. rewrite Y in Y'. injection Y' as <-.
  rewrite <- (nearest_unique _ _ _ N N'), <- (nearest_unique _ _ _ M M') in S'. exact (square_unique _ _ _ _ _ _ _ S S').
Qed.
Lemma all_finite l : (length (filter (fun p => negb (finite p)) l) =? 0) = true <-> (forall p, In p l -> finite p = true).
Proof.
  rewrite Nat.eqb_eq, length_zero_iff_nil. split.
  - intros E p I. destruct (finite p) eqn:F; [reflexivity|]. exfalso.
    assert (J : In p (filter (fun p => negb (finite p)) l)) by (apply filter_In; split; [exact I|rewrite F; reflexivity]). rewrite E in J. exact J.
  - intros H. induction l as [|p l IH]; [reflexivity|]. cbn. rewrite (H p (or_introl eq_refl)). cbn. apply IH. intros q I. apply H. right. exact I.
Qed.
Lemma one_source i b ids : i < length xs -> ready b h ->
  (~ kept i /\ pick_one finite im (map At xs) (map At ys) h (b, ids) i = Ok (b, ids)) \/
  (kept i /\ exists s b', stamp i s /\ pick_one finite im (map At xs) (map At ys) h (b, ids) i = Ok (b', ids ++ [i]) /\
    n0 b' = n0 b + 1 /\ dat b' = dat b ++ s /\ n1 b' = 2 * h + 1 /\ n2 b' = 2 * h + 1 /\ ready b' h).
Proof.
  intros I R. destruct (nth_error xs i) as [qx|] eqn:X; [|apply nth_error_None in X; lia]. destruct (nth_error ys i) as [qy|] eqn:Y; [|apply nth_error_None in Y; lia].
  destruct (pick_one finite im (map At xs) (map At ys) h (b, ids) i) as [r| | | |] eqn:Er.
  all: unfold pick_one in Er; unfold oget at 1 in Er; rewrite nth_error_map, X in Er; cbn [option_map obind] in Er.
  all: destruct (outside (At qx) h (m1 im)) eqn:Ox;
    [first [discriminate Er|injection Er as <-; left; split; [|reflexivity]; intros (s & (qx' & qy' & n & m & X' & _ & W & _) & _); apply outside_true in Ox; apply Ox; congruence]|].
  all: rewrite map_length, <- L, (proj2 (Nat.ltb_lt _ _) I) in Er; cbn [check obind] in Er; unfold oget at 1 in Er; rewrite nth_error_map, Y in Er; cbn [option_map obind] in Er.
  all: destruct (outside (At qy) h (m2 im)) eqn:Oy;
    [first [discriminate Er|injection Er as <-; left; split; [|reflexivity]; intros (s & (qx' & qy' & n & m & _ & Y' & _ & W & _) & _); apply outside_true in Oy; apply Oy; congruence]|].
  all: apply outside_false in Ox, Oy; destruct (within_pixel _ _ _ Ox) as (n & En & Nn & Hn), (within_pixel _ _ _ Oy) as (m & Em & Nm & Hm);
    pose proof (nearest_fits qx n (m1 im) (Cx qx (nth_error_In _ _ X)) Ox Nn) as Fx; pose proof (nearest_fits qy m (m2 im) (Cy qy (nth_error_In _ _ Y)) Oy Nm) as Fy;
    rewrite En, Em in Er; cbn [obind] in Er; destruct (cut_ok im n m h G ltac:(lia) ltac:(lia) Fx Fy) as (s & Es & S); rewrite Es in Er; cbn [obind pix] in Er.
  all: assert (St : stamp i s) by (exists qx, qy, n, m; repeat (split; [assumption|]); exact S).
  all: destruct (length (filter (fun p => negb (finite p)) s) =? 0) eqn:F; cbn [negb] in Er;
    [|first [discriminate Er|injection Er as <-; left; split; [|reflexivity]; intros (s' & St' & F'); rewrite <- (stamp_unique i s s' St St') in F'; rewrite (proj2 (all_finite s) F') in F; discriminate]].
  all: pose proof (proj1 (all_finite s) F) as Fs; assert (Ns : s <> []) by (destruct S as [Ls _]; intros ->; cbn in Ls; lia).
  all: unfold push_back in Er; cbn [fst snd m1 m2 pix] in Er; destruct R as [[Z D]|(Z & D1 & D2 & D)];
    [rewrite D in Er; cbn [length Nat.eqb obind] in Er
    |destruct (length (dat b) =? 0) eqn:E0; [apply Nat.eqb_eq, length_zero_iff_nil in E0; contradiction|rewrite D1, D2, Nat.eqb_refl in Er; cbn [andb check obind] in Er]]; try discriminate Er; injection Er as <-.
  all: right; split; [exists s; split; assumption|]; exists s; eexists; split; [exact St|]; split; [reflexivity|]; cbn [n0 n1 n2 dat].
  - rewrite Z, D. repeat split. right. cbn [n0 n1 n2 dat]. repeat split; [lia|exact Ns].
  - repeat split. right. cbn [n0 n1 n2 dat]. repeat split; [lia|]. intros E. apply app_eq_nil in E. destruct E; contradiction.
Qed.
Lemma all_sources : forall c k b ids, k + c <= length xs -> ready b h -> exists sel stamps b',
  ofold (pick_one finite im (map At xs) (map At ys) h) (seq k c) (b, ids) = Ok (b', ids ++ sel) /\ ascending sel /\
  (forall i, In i sel <-> k <= i < k + c /\ kept i) /\ Forall2 stamp sel stamps /\
  n0 b' = n0 b + length sel /\ dat b' = dat b ++ concat stamps /\ ready b' h.
Proof.
  induction c as [|c IH]; intros k b ids K R.
  - exists [], [], b. cbn. rewrite !app_nil_r. split; [reflexivity|]. split; [exact I|]. split; [intros i; split; [intros []|lia]|]. split; [constructor|]. split; [lia|]. split; [reflexivity|exact R].
  - cbn [seq ofold]. destruct (one_source k b ids ltac:(lia) R) as [[N E]|(Y & s & b1 & St & E & E0 & E1 & _ & _ & R1)]; rewrite E; cbn [obind].
    + destruct (IH (S k) b ids ltac:(lia) R) as (sel & stamps & b' & F & Asc & S & F2 & M). exists sel, stamps, b'. split; [exact F|]. split; [exact Asc|]. split; [|split; [exact F2|exact M]].
      intros i. rewrite S. split; intros [H Hk]; (split; [|exact Hk]); [lia|]. destruct (Nat.eq_dec i k) as [->|]; [contradiction|lia].
    + destruct (IH (S k) b1 (ids ++ [k]) ltac:(lia) R1) as (sel & stamps & b' & F & Asc & S & F2 & M0 & M1 & M2). exists (k :: sel), (s :: stamps), b'.
      split; [rewrite F, <- app_assoc; reflexivity|]. split.
      { destruct sel as [|j sel]; [exact Logic.I|]. split; [|exact Asc]. assert (J : In j (j :: sel)) by (left; reflexivity). apply S in J. lia. }
      split; [|split; [constructor; assumption|]].
      * intros i. cbn [In]. rewrite S. split; [intros [<-|[H Hk]]; (split; [lia|assumption])|]. intros [H Hk]. destruct (Nat.eq_dec k i); [left; assumption|right; split; [lia|exact Hk]].
      * split; [rewrite M0, E0; cbn [length]; lia|]. split; [rewrite M1, E1, <- app_assoc; reflexivity|exact M2].
Qed.
End Pick.

(* the identifiers of the sources that are further than the half size from the limits and have only
   finite pixels are added, in order, and their cutouts with them *)
Theorem C129_pick : forall A (finite : A -> bool) im xs ys h b ids, good im -> length xs = length ys ->
  (forall q, In q xs -> clear h q (m1 im)) -> (forall q, In q ys -> clear h q (m2 im)) -> ready b h ->
  exists sel stamps b', pick_sources finite im (map At xs) (map At ys) h b ids = Ok (b', ids ++ sel) /\ ascending sel /\
    (forall i, In i sel <-> kept finite im xs ys h i) /\ Forall2 (stamp im xs ys h) sel stamps /\
    n0 b' = n0 b + length sel /\ dat b' = dat b ++ concat stamps /\ ready b' h.
Proof.
  intros A finite im xs ys h b ids G L Cx Cy R. unfold pick_sources. rewrite map_length.
  destruct (all_sources finite im xs ys h G L Cx Cy (length xs) 0 b ids ltac:(lia) R) as (sel & stamps & b' & E & Asc & S & M). exists sel, stamps, b'.
  split; [exact E|]. split; [exact Asc|]. split; [|exact M]. intros i. rewrite S. split; [tauto|]. intros K. split; [|exact K].
  destruct K as (s & (qx & qy & n & m & X & _) & _). assert (i < length xs) by (apply nth_error_Some; congruence). lia.
Qed.
Print Assumptions C129_pick.
(* infinite coordinates are never picked *)
Theorem C129_infinite : forall A (finite : A -> bool) im y h b ids x, x = Infinite \/ (exists q, x = At q /\ ~ within q h (m1 im)) ->
  pick_sources finite im [x] y h b ids = Ok (b, ids).
Proof.
  intros A finite im y h b ids x H. unfold pick_sources. cbn [length seq ofold]. unfold pick_one. cbn [oget nth_error obind].
  assert (O : outside x h (m1 im) = true) by (destruct H as [->|(q & -> & N)]; [reflexivity|apply outside_true; exact N]). rewrite O. reflexivity.
Qed.
Print Assumptions C129_infinite.
(* Finding: the limit at the low side is one pixel too high: a source at the pixel h, whose cutout is
   within the image, is not picked. *)
Theorem C129_first_refuted : forall A (finite : A -> bool) im y h b ids, pick_sources finite im [At (whole h)] y h b ids = Ok (b, ids).
Proof. intros. apply C129_infinite. right. exists (whole h). split; [reflexivity|]. intros [W _]. lra. Qed.
Print Assumptions C129_first_refuted.
(* Finding: the limit at the high side is that of the coordinate, not of the pixel: a source in the
   first half of the pixel that is too far ends the program. *)
Theorem C129_edge_abort : forall A (finite : A -> bool) im h b ids qx qy, within qx h (m1 im) -> within qy h (m2 im) ->
  (whole (m1 im) - (1 # 2) <= qx + whole h)%Q -> pick_sources finite im [At qx] [At qy] h b ids = CheckFail.
Proof.
  intros A finite im h b ids qx qy Wx Wy E. unfold pick_sources. cbn [length seq ofold]. unfold pick_one. cbn [oget nth_error obind].
  rewrite (proj2 (outside_false _ _ _) Wx). cbn [length Nat.ltb Nat.leb check obind oget nth_error]. rewrite (proj2 (outside_false _ _ _) Wy).
  destruct (within_pixel _ _ _ Wx) as (n & En & [N1 N2] & Hn), (within_pixel _ _ _ Wy) as (m & Em & _). rewrite En, Em. cbn [obind]. unfold cut.
  assert (X : m1 im <= n + h).
  { destruct (Nat.le_gt_cases (m1 im) (n + h)) as [|X]; [assumption|]. exfalso. assert (Y : (whole (n + h + 1) <= whole (m1 im))%Q) by (unfold whole; rewrite <- Zle_Qle; lia).
    rewrite !whole_add in Y. change (whole 1) with 1%Q in Y. lra. }
  rewrite (proj2 (Nat.ltb_ge _ _) X). reflexivity.
Qed.
Print Assumptions C129_edge_abort.
(* Finding: NaN coordinates are not noticed, and converted to a pixel. *)
Theorem C129_nan_UB : forall A (finite : A -> bool) im h b ids y, y = NotANumber \/ (exists q, y = At q /\ within q h (m2 im)) ->
  pick_sources finite im [NotANumber] [y] h b ids = UB.
Proof.
  intros A finite im h b ids y H. unfold pick_sources. cbn [length seq ofold]. unfold pick_one. cbn [oget nth_error obind outside length Nat.ltb Nat.leb check].
  destruct H as [->|(q & -> & W)]; [reflexivity|]. rewrite (proj2 (outside_false _ _ _) W). reflexivity.
Qed.
Print Assumptions C129_nan_UB.
(* a source without a second coordinate ends the program, unless its first is outside *)
Theorem C129_missing : forall A (finite : A -> bool) im h b ids q, within q h (m1 im) ->
  pick_sources finite im [At q] [] h b ids = CheckFail.
Proof. intros A finite im h b ids q W. unfold pick_sources. cbn [length seq ofold]. unfold pick_one. cbn [oget nth_error obind]. rewrite (proj2 (outside_false _ _ _) W). reflexivity. Qed.
Print Assumptions C129_missing.

(* pixels are numbers here and 0 stands for NaN *)
Example C129_example : pick_sources (fun p => negb (p =? 0)) (mk_img 3 4 [1; 2; 3; 4; 5; 6; 7; 8; 9; 10; 11; 0])
  [At 1; At (3 # 2); At 2; At 0] [At (5 # 2); At 1; At 3; At 1] 0 (mk_cube 0 0 0 []) [7] = Ok (mk_cube 2 1 1 [8; 10], [7; 0; 1]).
Proof. reflexivity. Qed.
Example C129_example_edge : within (5 # 2) 0 3 /\ (whole 3 - (1 # 2) <= (5 # 2) + whole 0)%Q /\ within 1 0 4.
Proof. unfold within, Qle, Qlt. cbn. repeat split; lia. Qed.
