(* Proofs about the HDUs of FITS files. *)
From Verif Require Import Base FfileModel FfileSpec.
From Verif Require FimgModel FimgSpec FimgProofs FimgProofs2 FimgProofs3.
Local Open Scope list_scope.
Notation length := List.length.

Lemma nth_error_repeat_ {A} (x : A) n k : k < n -> nth_error (repeat x n) k = Some x.
Proof. revert k. induction n as [|n IH]; intros [|k] L; cbn; try lia; [reflexivity|]. apply IH. lia. Qed.
Lemma nth_error_skipn_ {A} (l : list A) n k : nth_error (skipn n l) k = nth_error l (n + k).
Proof. revert l. induction n as [|n IH]; intros l; [reflexivity|]. destruct l as [|x l]; [now destruct k|]. apply IH. Qed.
Lemma nth_error_firstn_ {A} (l : list A) n k : k < n -> nth_error (firstn n l) k = nth_error l k.
Proof. revert l k. induction n as [|n IH]; intros [|x l] [|k] L; cbn; try lia; try reflexivity. apply IH. lia. Qed.
Lemma insert_placed f : placed f -> placed (insert f).
Proof.
  unfold placed, insert. intros P. destruct (hdus f) as [|h l] eqn:E; cbn [hdus cur length]; [left; lia|].
  left. destruct P as [P|[P _]]; [|discriminate]. rewrite app_length, firstn_length, <- E in *. cbn [length]. rewrite skipn_length. lia.
Qed.
Lemma insert_many_eq : forall n f, hdus f <> [] -> cur f < length (hdus f) ->
  insert_many n f = File (acc f) (firstn (cur f + 1) (hdus f) ++ repeat FimgModel.Empty n ++ skipn (cur f + 1) (hdus f)) (cur f + n).
Proof.
  induction n as [|n IH]; intros f N C.
  - cbn [insert_many repeat app]. rewrite firstn_skipn, Nat.add_0_r. now destruct f.
  - cbn [insert_many]. assert (E : insert f = File (acc f) (firstn (cur f + 1) (hdus f) ++ FimgModel.Empty :: skipn (cur f + 1) (hdus f)) (cur f + 1)).
    { unfold insert. destruct (hdus f); [congruence|reflexivity]. }
    assert (L : length (firstn (cur f + 1) (hdus f)) = cur f + 1) by (rewrite firstn_length; lia).
    rewrite E, IH; cbn [acc hdus cur].
    + f_equal; [|lia]. rewrite firstn_app, L, skipn_app, L. replace (cur f + 1 + 1 - (cur f + 1)) with 1 by lia.
      rewrite firstn_all2 by (rewrite L; lia). rewrite (skipn_all2 (n := cur f + 1 + 1)) by (rewrite L; lia). cbn [firstn skipn app].
      rewrite <- app_assoc. reflexivity.
    + intros X. apply (f_equal (@length _)) in X. rewrite app_length in X. cbn [length] in X. lia.
    + rewrite app_length, L. cbn [length]. lia.
Qed.
Lemma reach_old f n : n < hdu_count f -> reach_hdu f n = Ok (File (acc f) (hdus f) n).
Proof.
  intros L. assert (M : move_to f n = Ok (File (acc f) (hdus f) n)) by (unfold move_to; now rewrite (proj2 (Nat.ltb_lt _ _) L)).
  unfold reach_hdu. destruct (acc f).
  - rewrite (proj2 (Nat.ltb_lt _ _) L). exact M.
  - rewrite (proj2 (Nat.leb_gt _ _) L). exact M.
Qed.
Lemma reach_far f n : placed f -> acc f = ReadWrite -> hdu_count f <= n ->
  reach_hdu f n = Ok (File ReadWrite (firstn (cur f + 1) (hdus f) ++ repeat FimgModel.Empty (n + 1 - hdu_count f) ++ skipn (cur f + 1) (hdus f)) n).
Proof.
  intros P A L. unfold reach_hdu. rewrite A, (proj2 (Nat.leb_le _ _) L). destruct P as [P|[P Q]].
  - rewrite insert_many_eq; [|intros X; rewrite X in P; cbn in P; lia|exact P]. unfold move_to. cbn [hdus acc cur]. rewrite A.
    unfold hdu_count in *. cbn [hdus]. rewrite !app_length, firstn_length, skipn_length, repeat_length.
    destruct (Nat.ltb_spec n (Nat.min (cur f + 1) (length (hdus f)) + (n + 1 - length (hdus f) + (length (hdus f) - (cur f + 1))))); [reflexivity|lia].
  - unfold hdu_count in *. rewrite P in *. cbn [length] in *. replace (n + 1 - 0) with (S n) by lia. cbn [insert_many].
    assert (E : insert f = File (acc f) [FimgModel.Empty] 0) by (unfold insert; now rewrite P). rewrite E, insert_many_eq; cbn [hdus cur acc length]; [|discriminate|lia].
    cbn [firstn skipn Nat.add app]. rewrite A. unfold move_to, hdu_count. cbn [hdus acc length]. rewrite app_nil_r, repeat_length.
    rewrite (proj2 (Nat.ltb_lt n (S n))) by lia. rewrite Q. cbn [Nat.add firstn skipn repeat app]. now rewrite app_nil_r.
Qed.
Lemma reach_last f n : placed f -> acc f = ReadWrite -> hdu_count f <= n -> hdu_count f <= cur f + 1 ->
  reach_hdu f n = Ok (File ReadWrite (hdus f ++ repeat FimgModel.Empty (n + 1 - hdu_count f)) n).
Proof.
  intros P A L C. rewrite reach_far by assumption. unfold hdu_count in *. rewrite firstn_all2 by lia. rewrite skipn_all2 by lia. now rewrite app_nil_r.
Qed.

Lemma put_at f h k : cur f < length (hdus f) ->
  hdu_at (put f h) k = if k =? cur f then Some h else hdu_at f k.
Proof.
  intros C. unfold hdu_at, put. destruct (hdus f) as [|x l] eqn:E; [cbn in C; lia|]. cbn [hdus]. rewrite <- E in *. clear E.
  destruct (Nat.eqb_spec k (cur f)) as [->|N]; [now apply nth_error_upd_same|now apply nth_error_upd_other].
Qed.

(* one image after the other *)
Definition holds (t : FimgModel.etype) (v : FimgModel.arr) : hdu :=
  FimgModel.Holds (FimgModel.Image (FimgModel.image_type t) (rev (FimgModel.dims v)) (map (FimgProofs.raw t) (FimgModel.data v))).
Lemma write_image_eq f t v : current f = FimgModel.NoHdu \/ current f = FimgModel.Empty -> Forall (FimgSpec.exact t) (FimgModel.data v) ->
  write_image f t v = Ok (put f (holds t v)).
Proof. intros H F. unfold write_image. now rewrite FimgProofs2.write_ok. Qed.
Lemma image_dims_eq f t v : current f = holds t v -> axis_count f = Ok (length (FimgModel.dims v)) /\ image_dims f = Ok (FimgModel.dims v).
Proof.
  intros H. assert (A : axis_count f = Ok (length (FimgModel.dims v))) by (unfold axis_count; rewrite H; cbn [holds FimgModel.naxes]; now rewrite rev_length).
  split; [exact A|]. unfold image_dims. rewrite A, H. cbn [obind holds FimgModel.naxes].
  rewrite FimgProofs.reversed by (now rewrite rev_length). now rewrite rev_involutive.
Qed.
Lemma write_one l t v : Forall (FimgSpec.exact t) (FimgModel.data v) ->
  (f <- reach_hdu (File ReadWrite l (length l - 1)) (length l) ;; write_image f t v) = Ok (File ReadWrite (l ++ [holds t v]) (length l)).
Proof.
  intros F. assert (P : placed (File ReadWrite l (length l - 1))).
  { unfold placed. cbn [hdus cur]. destruct l; [right; auto|left; cbn [length]; lia]. }
  rewrite reach_last; [|exact P|reflexivity|unfold hdu_count; cbn [hdus]; lia|unfold hdu_count; cbn [hdus cur]; lia].
  unfold hdu_count. cbn [hdus obind]. replace (length l + 1 - length l) with 1 by lia. cbn [repeat].
  rewrite write_image_eq; [|right; unfold current; cbn [hdus cur]; rewrite nth_error_app2, Nat.sub_diag by lia; reflexivity|exact F].
  unfold put. cbn [hdus cur acc]. rewrite FimgProofs3.upd_mid. now destruct l.
Qed.
