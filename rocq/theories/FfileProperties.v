(* C114: the HDUs of a FITS file. *)
From Verif Require Import Base FfileModel FfileSpec FfileProofs.
From Verif Require FimgModel FimgSpec FimgProofs FimgProofs2.
Local Open Scope list_scope.
Notation length := List.length.
Import FimgModel(Empty, NoHdu, Table, Holds, Arr, Image, Int, Short, Double, KShort, KLonglong).

(* Reaching an HDU which exists changes nothing in the file. *)
Theorem C114_reach : forall f n, n < length (hdus f) ->
  exists f', reach_hdu f n = Ok f' /\ hdus f' = hdus f /\ acc f' = acc f /\ cur f' = n /\ hdu_at f n = Some (current f').
Proof.
  intros f n L. eexists. split; [now apply reach_old|]. cbn [hdus acc cur]. repeat split. unfold hdu_at, current. cbn [hdus cur].
  destruct (nth_error (hdus f) n) eqn:E; [reflexivity|]. apply nth_error_None in E. lia.
Qed.
Print Assumptions C114_reach.
Example C114_reach_ex : reach_hdu (File ReadOnly [Empty; Table; Empty] 2) 1 = Ok (File ReadOnly [Empty; Table; Empty] 1).
Proof. reflexivity. Qed.

(* In a file which is only read, a missing HDU is an error. *)
Theorem C114_missing : forall f n, acc f = ReadOnly -> length (hdus f) <= n -> reach_hdu f n = CheckFail.
Proof. intros f n A L. unfold reach_hdu, hdu_count. rewrite A. destruct (Nat.ltb_spec n (length (hdus f))); [lia|reflexivity]. Qed.
Print Assumptions C114_missing.
Example C114_missing_ex : reach_hdu (File ReadOnly [Empty; Table] 0) 2 = CheckFail.
Proof. reflexivity. Qed.

(* In a file which is written, from the last HDU: the HDUs that are missing are created, empty, after the others. *)
Theorem C114_create : forall f n, placed f -> acc f = ReadWrite -> length (hdus f) <= n -> length (hdus f) <= cur f + 1 ->
  exists f', reach_hdu f n = Ok f' /\ acc f' = ReadWrite /\ cur f' = n /\ length (hdus f') = n + 1 /\
    (forall k, k < length (hdus f) -> hdu_at f' k = hdu_at f k) /\ (forall k, length (hdus f) <= k <= n -> hdu_at f' k = Some Empty).
Proof.
  intros f n P A L C. eexists. split; [now apply reach_last|]. unfold hdu_at, hdu_count. cbn [acc cur hdus]. repeat split.
  - rewrite app_length, repeat_length. lia.
  - intros k K. now rewrite nth_error_app1.
  - intros k K. rewrite nth_error_app2 by lia. apply nth_error_repeat_. lia.
Qed.
Print Assumptions C114_create.
Example C114_create_ex : reach_hdu (File ReadWrite [Table] 0) 2 = Ok (File ReadWrite [Table; Empty; Empty] 2) /\ reach_hdu (File ReadWrite [] 0) 1 = Ok (File ReadWrite [Empty; Empty] 1).
Proof. split; reflexivity. Qed.

(* Finding: when the file is not at its last HDU, the HDUs are inserted after the current one.  All those that
   follow it change numbers, and the HDU which is reached is not a new one: it is the one that was the last. *)
Theorem C114_create_refuted : forall f n, acc f = ReadWrite -> cur f + 1 < length (hdus f) -> length (hdus f) <= n ->
  exists f', reach_hdu f n = Ok f' /\ cur f' = n /\
    Some (current f') = hdu_at f (length (hdus f) - 1) /\
    hdu_at f' (cur f + 1) = Some Empty /\
    forall k, cur f < k < length (hdus f) -> hdu_at f' (k + (n + 1 - length (hdus f))) = hdu_at f k.
Proof.
  intros f n A C L. assert (P : placed f) by (left; lia). eexists. split; [now apply reach_far|]. cbn [cur].
  assert (G : forall k, cur f < k < length (hdus f) -> nth_error (firstn (cur f + 1) (hdus f) ++ repeat Empty (n + 1 - length (hdus f)) ++ skipn (cur f + 1) (hdus f)) (k + (n + 1 - length (hdus f))) = nth_error (hdus f) k).
  { intros k K. rewrite nth_error_app2; rewrite firstn_length; [|lia]. rewrite nth_error_app2; rewrite repeat_length; [|lia].
    rewrite nth_error_skipn_. f_equal. lia. }
  split; [reflexivity|]. unfold hdu_at, current, hdu_count. cbn [hdus cur]. repeat split.
  - replace n with (length (hdus f) - 1 + (n + 1 - length (hdus f))) at 2 by lia. rewrite G by lia.
    destruct (nth_error (hdus f) (length (hdus f) - 1)) eqn:E; [reflexivity|]. apply nth_error_None in E. lia.
  - rewrite nth_error_app2; rewrite firstn_length; [|lia]. rewrite nth_error_app1; [|rewrite repeat_length; lia]. apply nth_error_repeat_. lia.
  - exact G.
Qed.
Print Assumptions C114_create_refuted.
Example C114_create_refuted_ex : exists f, reach_hdu (File ReadWrite [Empty; Table; Holds (Image KShort [1%Z] [7%Z])] 0) 3 = Ok f /\
  hdus f = [Empty; Empty; Table; Holds (Image KShort [1%Z] [7%Z])] /\ write_image f Short (Arr [1%Z] [8%Z]) = CheckFail.
Proof. eexists. repeat split; reflexivity. Qed.

(* An image written in an HDU without data is in this HDU, with its dimensions; the other HDUs are unchanged. *)
Theorem C114_write : forall f t v, placed f -> current f = NoHdu \/ current f = Empty -> fits_in (t, v) ->
  exists f', write_image f t v = Ok f' /\ cur f' = cur f /\ acc f' = acc f /\
    FimgModel.read (current f') t (length (FimgModel.dims v)) = Ok v /\
    axis_count f' = Ok (length (FimgModel.dims v)) /\ image_dims f' = Ok (FimgModel.dims v) /\
    length (hdus f') = Nat.max 1 (length (hdus f)) /\ forall k, k <> cur f -> hdu_at f' k = hdu_at f k.
Proof.
  intros f t v P H [V F]. cbn [fst snd] in *. eexists. split; [now apply write_image_eq|].
  assert (X : current (put f (holds t v)) = holds t v).
  { unfold current, put. destruct P as [P|[P Q]].
    - destruct (hdus f) as [|x l] eqn:E; [cbn in P; lia|]. cbn [hdus cur]. rewrite nth_error_upd_same by exact P. reflexivity.
    - now rewrite P. }
  rewrite X. split; [|split; [|split; [|split; [|split; [|split]]]]].
  - unfold put. destruct (hdus f) eqn:E; [|reflexivity]. destruct P as [P|[_ ->]]; [rewrite E in P; cbn in P; lia|reflexivity].
  - unfold put. now destruct (hdus f).
  - apply FimgProofs2.written_read; [exact V|now destruct t|].
    eapply Forall_impl; [|exact F]. intros z Z. split; [exact Z|]. split; [exact Z|congruence].
  - now apply (image_dims_eq _ t v X).
  - now apply (image_dims_eq _ t v X).
  - unfold put. destruct (hdus f) eqn:E; [reflexivity|]. cbn [hdus]. rewrite upd_length. cbn [length]. lia.
  - intros k K. destruct P as [P|[P Q]]; [rewrite put_at by exact P; now rewrite (proj2 (Nat.eqb_neq _ _) K)|].
    unfold hdu_at, put. rewrite P. cbn [hdus]. destruct k as [|k]; [congruence|]. cbn [nth_error]. now destruct k.
Qed.
Print Assumptions C114_write.
Example C114_write_ex : write_image (File ReadWrite [Table; Empty; Table] 1) Int (Arr [2; 1]%Z [5; 6]%Z) =
  Ok (File ReadWrite [Table; Holds (Image KLonglong [1; 2]%Z [5; 6]%Z); Table] 1).
Proof. reflexivity. Qed.

Lemma write_each_ok : forall l pre, Forall fits_in l ->
  write_each (File ReadWrite pre (length pre - 1)) (length pre) l =
    Ok (File ReadWrite (pre ++ map (fun tv => holds (fst tv) (snd tv)) l) (length pre + length l - 1)).
Proof.
  induction l as [|[t v] l IH]; intros pre F; cbn [write_each map length].
  - now rewrite app_nil_r, Nat.add_0_r.
  - assert (Fv := Forall_inv F). destruct Fv as [_ Fv]. pose proof (write_one pre t v Fv) as W.
    destruct (reach_hdu _ (length pre)) as [f1| | | |]; cbn [obind] in *; try discriminate. rewrite W. cbn [obind fst snd].
    specialize (IH (pre ++ [holds t v]) (Forall_inv_tail F)). rewrite app_length in IH. cbn [length] in IH.
    replace (length pre + 1 - 1) with (length pre) in IH by lia. rewrite IH. rewrite <- app_assoc. cbn [app]. do 2 f_equal. lia.
Qed.
(* Images written one after the other, each in its own HDU, in a new file: each of them is read from its HDU. *)
Theorem C114_many : forall l, Forall fits_in l -> exists f, write_each (File ReadWrite [] 0) 0 l = Ok f /\ length (hdus f) = length l /\
  forall i t v, nth_error l i = Some (t, v) -> read_hdu f i t (length (FimgModel.dims v)) = Ok v.
Proof.
  intros l F. pose proof (write_each_ok l [] F) as W. cbn [length Nat.sub app Nat.add] in W. eexists. split; [exact W|]. cbn [hdus].
  rewrite map_length. split; [reflexivity|]. intros i t v E. unfold read_hdu.
  assert (L : i < length l) by (apply nth_error_Some; congruence).
  rewrite reach_old by (unfold hdu_count; cbn [hdus]; now rewrite map_length). cbn [obind]. unfold current. cbn [hdus cur].
  rewrite (map_nth_error _ _ _ E). cbn [fst snd]. rewrite Forall_forall in F. destruct (F _ (nth_error_In _ _ E)) as [V X]. cbn [fst snd] in *.
  apply FimgProofs2.written_read; [exact V|now destruct t|].
  eapply Forall_impl; [|exact X]. intros z Z. split; [exact Z|]. split; [exact Z|congruence].
Qed.
Print Assumptions C114_many.
Example C114_many_ex : exists f, write_each (File ReadWrite [] 0) 0 [(Short, Arr [1]%Z [5]%Z); (Int, Arr [2]%Z [6; 7]%Z)] = Ok f /\
  read_hdu f 0 Short 1 = Ok (Arr [1]%Z [5]%Z) /\ read_hdu f 1 Int 1 = Ok (Arr [2]%Z [6; 7]%Z).
Proof. exists (File ReadWrite [Holds (Image KShort [1]%Z [5]%Z); Holds (Image KLonglong [2]%Z [6; 7]%Z)] 1). repeat split; reflexivity. Qed.

(* An HDU which is removed: the others stay, in the same order; the file is then at the next one, or else at the last
   one.  The primary HDU stays, without data. *)
Theorem C114_remove : forall f, cur f < length (hdus f) -> exists f', remove_hdu f = Ok f' /\ placed f' /\ acc f' = acc f /\
  (forall k, k < cur f -> hdu_at f' k = hdu_at f k) /\
  (cur f = 0 -> cur f' = 0 /\ hdu_at f' 0 = Some Empty /\ length (hdus f') = length (hdus f) /\ forall k, 0 < k -> hdu_at f' k = hdu_at f k) /\
  (0 < cur f -> length (hdus f') + 1 = length (hdus f) /\ (forall k, cur f <= k -> hdu_at f' k = hdu_at f (k + 1)) /\
     cur f' = Nat.min (cur f) (length (hdus f') - 1)).
Proof.
  intros f C. unfold remove_hdu. destruct (hdus f) as [|h l] eqn:E; [cbn in C; lia|]. rewrite <- E in *.
  destruct (Nat.eqb_spec (cur f) 0) as [Z|Z].
  - eexists. split; [reflexivity|]. unfold placed, hdu_at. cbn [hdus cur acc]. repeat split; try (intros; lia); try reflexivity.
    + left. cbn [length]. lia.
    + rewrite E. reflexivity.
    + intros k K. rewrite E. destruct k; [lia|reflexivity].
  - eexists. split; [reflexivity|]. cbv zeta. unfold placed, hdu_at. cbn [hdus cur acc].
    assert (L : length (firstn (cur f) (hdus f) ++ skipn (cur f + 1) (hdus f)) = length (hdus f) - 1) by (rewrite app_length, firstn_length, skipn_length; lia).
    rewrite L. split; [left; destruct (Nat.ltb_spec (cur f) (length (hdus f) - 1)); lia|]. split; [reflexivity|].
    split; [intros k K; rewrite nth_error_app1 by (rewrite firstn_length; lia); now apply nth_error_firstn_|].
    split; [lia|]. intros _. split; [lia|]. split.
    + intros k K. rewrite nth_error_app2; rewrite firstn_length; [|lia]. rewrite nth_error_skipn_. f_equal. lia.
    + destruct (Nat.ltb_spec (cur f) (length (hdus f) - 1)); lia.
Qed.
Print Assumptions C114_remove.
Example C114_remove_ex : remove_hdu (File ReadWrite [Empty; Table; Empty] 1) = Ok (File ReadWrite [Empty; Empty] 1) /\
  remove_hdu (File ReadWrite [Empty; Table] 1) = Ok (File ReadWrite [Empty] 0) /\
  remove_hdu (File ReadWrite [Holds (Image KShort [1]%Z [5]%Z); Table] 0) = Ok (File ReadWrite [Empty; Table] 0).
Proof. repeat split; reflexivity. Qed.

(* an HDU without data has no axis *)
Theorem C114_no_axis : forall f, current f = Empty -> axis_count f = Ok 0 /\ image_dims f = Ok [].
Proof. intros f H. unfold image_dims, axis_count. rewrite H. split; reflexivity. Qed.
Print Assumptions C114_no_axis.
Example C114_no_axis_ex : image_dims (File ReadWrite [Empty; Table] 0) = Ok [] /\ axis_count (File ReadWrite [Table; Empty] 1) = Ok 0.
Proof. split; reflexivity. Qed.

(* Finding: the comments of axis_count and image_dims say that they give 0 and an empty array for a table; they fail. *)
Theorem C114_table_refuted : forall f, current f = Table -> axis_count f = Throws /\ image_dims f = Throws.
Proof. intros f H. unfold image_dims, axis_count. now rewrite H. Qed.
Print Assumptions C114_table_refuted.
Example C114_table_refuted_ex : axis_count (File ReadOnly [Empty; Table] 1) = Throws.
Proof. reflexivity. Qed.
