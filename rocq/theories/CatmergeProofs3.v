From Coq Require Import String.
From Verif Require Import Base CatmergeModel CatmergeSpec CatmergeProofs CatmergeProofs2.
Local Open Scope nat_scope.
Local Open Scope list_scope.

Lemma made_valid {C D} (p : pool C D) : made p -> valid p /\ cats p <> [].
Proof.
  induction 1 as [qx ref_of force cached p' cra cdec no_new sel E|ref_of p p' M [V N] E|qx ref_of force cached p p' cra cdec no_new sel ng x M [V N] Hn Hx G E].
  - split; [eapply valid_first; exact E|]. unfold add_catalog_ in E. destruct (check _) as [[]| | | |]; cbn [obind empty_pool cats] in E; try discriminate.
    destruct (pick cra _); cbn [obind] in E; try discriminate. destruct (pick cdec _); cbn [obind] in E; try discriminate.
    injection E as <-. discriminate.
  - split; [eapply valid_plain; eassumption|]. unfold add_catalog_plain in E. destruct (ngal p); [|discriminate]. injection E as <-.
    cbn. destruct (cats p); discriminate.
  - split; [eapply valid_more; eassumption|].
    destruct V as (n & Hn' & L1 & _). assert (Q : n = ng) by congruence. rewrite Q in *. clear Q n.
    destruct (add_sel _ _ _ _ _ _ _ _ _ _ N E) as [Lc Fs].
    destruct (add_ok qx ref_of force cached p cra cdec no_new sel ng x N Hn L1 Lc Fs Hx G) as (td & _ & _ & E'). cbn zeta in E'.
    rewrite E' in E. injection E as <-. cbn. destruct (cats p); discriminate.
Qed.

Lemma put_merged {D T} n (c : catalog D) (out : list T) def : valid_cat n c -> Forall (fun i => i < length out) (idi c) ->
  exists res, put (repeat def n) (idm c) (gather out (idi c)) = Ok res /\ merged n c out def res.
Proof.
  intros (L & N & F) Fi. destruct (put_ok (repeat def n) (idm c) (gather out (idi c))) as (r & E & Lr & R1 & R2).
  - rewrite gather_length by exact Fi. lia.
  - exact N.
  - rewrite repeat_length. exact F.
  - exists r. split; [exact E|]. rewrite repeat_length in Lr. split; [exact Lr|]. split.
    + intros k g i v Hg Hi Hv. apply (R1 k); [exact Hg|]. rewrite (gather_nth _ _ _ _ Fi Hi). exact Hv.
    + intros g Hg Ng. rewrite R2 by exact Ng. apply nth_repeat. exact Hg.
Qed.
Lemma merged_Forall {D T} n (c : catalog D) (P : T -> Prop) out def res : valid_cat n c -> Forall (fun i => i < length out) (idi c) ->
  merged n c out def res -> Forall P out -> P def -> Forall P res.
Proof.
  intros (L & N & F) Fi (Lr & R1 & R2) Po Pd. apply Forall_forall. intros y Hy. apply In_nth_error in Hy. destruct Hy as [g Hg].
  assert (g < n) by (rewrite <- Lr; apply nth_error_Some; congruence).
  destruct (in_dec Nat.eq_dec g (idm c)) as [I|I].
  - apply In_nth_error in I. destruct I as [k Hk].
    destruct (nth_error (idi c) k) as [i|] eqn:Ei; [|apply nth_error_None in Ei; assert (k < length (idm c)) by (apply nth_error_Some; congruence); lia].
    pose proof (proj1 (Forall_forall _ _) Fi i (nth_error_In _ _ Ei)) as Hi. cbn beta in Hi.
    destruct (nth_error out i) as [v|] eqn:Ev; [|apply nth_error_None in Ev; lia].
    rewrite (R1 k g i v Hk Ei Ev) in Hg. injection Hg as <-. apply (proj1 (Forall_forall _ _) Po). eapply nth_error_In. exact Ev.
  - rewrite R2 in Hg by assumption. injection Hg as <-. exact Pd.
Qed.

Section Cols.
Context {C D T : Type}.
Implicit Types (p : pool C D) (c : catalog D).

Lemma merge_vec_ok p c n (out : list T) def : ngal p = Some n -> valid_cat n c -> Forall (fun i => i < length out) (idi c) ->
  exists res, merge_vec p c [] out def = Ok res /\ merged n c out def res.
Proof.
  intros Hn V F. unfold merge_vec. cbn [check obind]. rewrite Hn, pick_ok by exact F. cbn [obind]. now apply put_merged.
Qed.
Lemma merge_scalar_ok p c n (out def : T) : ngal p = Some n -> valid_cat n c ->
  exists res, merge_scalar p c [] out def = Ok res /\ length res = n /\
    forall g, g < n -> nth_error res g = Some (if in_dec Nat.eq_dec g (idm c) then out else def).
Proof.
  intros Hn (L & N & F). unfold merge_scalar. cbn [check obind]. rewrite Hn.
  destruct (put_ok (repeat def n) (idm c) (repeat out (length (idm c)))) as (r & E & Lr & R1 & R2).
  - now rewrite repeat_length.
  - exact N.
  - rewrite repeat_length. exact F.
  - exists r. split; [exact E|]. rewrite repeat_length in Lr. split; [exact Lr|]. intros g Hg. destruct (in_dec Nat.eq_dec g (idm c)) as [I|I].
    + apply In_nth_error in I. destruct I as [k Hk]. apply (R1 k); [exact Hk|]. apply nth_repeat. apply nth_error_Some. congruence.
    + rewrite R2 by exact I. now apply nth_repeat.
Qed.
Lemma merge_mat_ok p c n d0 d1 (rows : list (list T)) def : ngal p = Some n -> valid_cat n c -> Forall (fun i => i < length rows) (idi c) ->
  exists res, merge_mat p c (0, 0, []) (d0, d1, rows) def = Ok (n, d1, res) /\ merged n c rows (repeat def d1) res.
Proof.
  intros Hn V F. unfold merge_mat. cbn [mempty check obind Nat.mul Nat.eqb]. rewrite Hn, pick_ok by exact F. cbn [obind].
  destruct (put_merged n c rows (repeat def d1) V F) as (r & E & M). rewrite E. exists r. auto.
Qed.
End Cols.

Lemma combine_nil {T} n (l : list (list T)) : length l = n -> map (fun '(x, y) => x ++ y) (combine (repeat [] n) l) = l.
Proof. intros <-. induction l as [|a l IH]; cbn; [reflexivity|]. now rewrite IH. Qed.
Lemma append_ok {T} n nb b (f : mat T) rf res : 0 < n -> 0 < b -> length res = n ->
  (nb = 0 /\ f = (0, 0, []) \/ 0 < nb /\ f = (n, nb, rf)) ->
  append_cols f (n, b, res) = Ok (n, nb + b, map (fun '(x, y) => x ++ y) (combine (rows_of n f) res)).
Proof.
  intros Hn Hb Lr [[-> ->]|[Hnb ->]]; unfold append_cols, mempty.
  - cbn [Nat.mul Nat.eqb rows_of]. rewrite combine_nil by exact Lr. reflexivity.
  - assert (T1 : (n * nb =? 0) = false) by (apply Nat.eqb_neq; intros Z; apply Nat.eq_mul_0 in Z; lia).
    assert (T2 : (n * b =? 0) = false) by (apply Nat.eqb_neq; intros Z; apply Nat.eq_mul_0 in Z; lia).
    unfold rows_of. rewrite T1, T2, Nat.eqb_refl. reflexivity.
Qed.
Lemma map_shift a b : map (fun i => i + a) (seq 0 b) = seq a b.
Proof.
  assert (G : forall c, map (fun i => i + a) (seq c b) = seq (c + a) b).
  { induction b as [|b IH]; intros c; cbn; [reflexivity|]. f_equal. apply IH. }
  apply G.
Qed.
Lemma rows_app {T} (a b : list (list T)) x y : Forall (fun r => length r = x) a -> Forall (fun r => length r = y) b ->
  Forall (fun r => length r = x + y) (map (fun '(u, v) => u ++ v) (combine a b)).
Proof.
  intros Fa. revert b. induction Fa as [|u a Hu Fa IH]; intros b Fb; cbn; [constructor|].
  destruct Fb as [|v b Hv Fb]; cbn; constructor; [rewrite app_length; lia|]. now apply IH.
Qed.
Lemma repeat_Forall {T} (P : T -> Prop) a n : P a -> Forall P (repeat a n).
Proof. intros H. induction n; cbn; constructor; auto. Qed.

Lemma flux_ok {C D T} (nan : T) (p : pool C D) (c : catalog D) n (f : phot T) f0 e0 b rf re cbands cnotes :
  ngal p = Some n -> 0 < n -> valid_cat n c -> valid_phot n f -> 0 < b -> length cbands = b ->
  Forall (fun i => i < length rf) (idi c) -> Forall (fun i => i < length re) (idi c) ->
  Forall (fun r => length r = b) rf -> Forall (fun r => length r = b) re ->
  exists mf me f', merge_flux nan p c f (f0, b, rf) (e0, b, re) cbands cnotes =
      Ok (Cat (idi c) (idm c) (seq (length (bands f)) b) (cdist c) (ref c), f') /\
    valid_phot n f' /\ bands f' = bands f ++ cbands /\
    merged n c rf (repeat nan b) mf /\ merged n c re (repeat nan b) me /\
    flux f' = (n, length (bands f) + b, map (fun '(x, y) => x ++ y) (combine (rows_of n (flux f)) mf)) /\
    ferr f' = (n, length (bands f) + b, map (fun '(x, y) => x ++ y) (combine (rows_of n (ferr f)) me)) /\
    notes f' = notes f ++ map (fun s => match s with EmptyString => ref c | _ => append (append s " ") (ref c) end)
                            (match cnotes with [] => repeat EmptyString b | _ => cnotes end).
Proof.
  intros Hn Pn Vc Vf Pb Lb Fi1 Fi2 F1 F2. unfold merge_flux. rewrite Lb, Nat.eqb_refl. cbn [check obind].
  destruct (merge_mat_ok p c n f0 b rf nan Hn Vc Fi1) as (mf & E1 & M1).
  destruct (merge_mat_ok p c n e0 b re nan Hn Vc Fi2) as (me & E2 & M2).
  rewrite E1. cbn [obind]. rewrite E2. cbn [obind].
  assert (Xf : exists r, length (bands f) = 0 /\ flux f = (0, 0, []) \/ 0 < length (bands f) /\ flux f = (n, length (bands f), r)).
  { destruct Vf as [(B & -> & _)|(B & r & r' & -> & _)]; [exists []; left; rewrite B; auto|exists r; auto]. }
  assert (Xe : exists r, length (bands f) = 0 /\ ferr f = (0, 0, []) \/ 0 < length (bands f) /\ ferr f = (n, length (bands f), r)).
  { destruct Vf as [(B & _ & ->)|(B & r & r' & _ & -> & _)]; [exists []; left; rewrite B; auto|exists r'; auto]. }
  destruct Xf as [r1 Xf], Xe as [r2 Xe].
  rewrite (append_ok n (length (bands f)) b (flux f) r1 mf Pn Pb (proj1 M1) Xf). cbn [obind].
  rewrite (append_ok n (length (bands f)) b (ferr f) r2 me Pn Pb (proj1 M2) Xe). cbn [obind].
  rewrite map_shift. exists mf, me. eexists. split; [reflexivity|]. cbn [bands flux ferr notes].
  assert (Rb : forall g, (length (bands f) = 0 /\ g = (0, 0, []) \/ (exists r, g = (n, length (bands f), r) /\ length r = n /\
       Forall (fun r => length r = length (bands f)) r /\ 0 < length (bands f))) ->
       length (rows_of n g : list (list T)) = n /\ Forall (fun r => length r = length (bands f)) (rows_of n g)).
  { intros g [[Z ->]|(r & -> & Lr & Fr & Pz)].
    - cbn. rewrite repeat_length. split; [reflexivity|]. apply repeat_Forall. cbn. lia.
    - unfold rows_of. assert (T1 : (n * length (bands f) =? 0) = false) by (apply Nat.eqb_neq; intros Z; apply Nat.eq_mul_0 in Z; lia).
      rewrite T1. auto. }
  assert (Nf : length (rows_of n (flux f)) = n /\ Forall (fun r => length r = length (bands f)) (rows_of n (flux f))).
  { apply Rb. destruct Vf as [(B & -> & _)|(B & r & r' & -> & _ & Lr & _ & Fr & _)]; [left; rewrite B; auto|right; exists r; auto]. }
  assert (Ne : length (rows_of n (ferr f)) = n /\ Forall (fun r => length r = length (bands f)) (rows_of n (ferr f))).
  { apply Rb. destruct Vf as [(B & _ & ->)|(B & r & r' & _ & -> & _ & Lr & _ & Fr)]; [left; rewrite B; auto|right; exists r'; auto]. }
  assert (W1 : Forall (fun r => length r = b) mf) by (eapply merged_Forall; [exact Vc|exact Fi1|exact M1|exact F1|apply repeat_length]).
  assert (W2 : Forall (fun r => length r = b) me) by (eapply merged_Forall; [exact Vc|exact Fi2|exact M2|exact F2|apply repeat_length]).
  split.
  { right. cbn [bands flux ferr]. rewrite app_length, Lb. split; [lia|]. do 2 eexists. split; [reflexivity|]. split; [reflexivity|].
    destruct Nf as [Nf1 Nf2], Ne as [Ne1 Ne2]. rewrite !map_length, !combine_length, Nf1, Ne1, (proj1 M1), (proj1 M2).
    split; [lia|]. split; [lia|]. split; apply rows_app; assumption. }
  split; [reflexivity|]. split; [exact M1|]. split; [exact M2|]. split; [reflexivity|]. split; [reflexivity|].
  f_equal. rewrite map_map. destruct cnotes; apply map_ext; intros [|? ?]; reflexivity.
Qed.
