(* Proofs about headers written in a FITS file. *)
From Coq Require Import Ascii String.
From Verif Require Import Base StrModel StrSpec StrProofs StrProofs3 KeyModel KeySpec KeyProofs FfileModel FfileSpec.
Local Open Scope list_scope.
Notation length := List.length.

Lemma internal_ok nam : exists b, internal nam = Ok b /\ (b = true <-> describes nam).
Proof.
  unfold internal. destruct (begins_with_ok nam (lit "NAXIS")) as (r & E & R). rewrite E. cbn [obind]. unfold describes. change word with lit.
  destruct (same_str nam (lit "SIMPLE")) eqn:E1; [exists true; split; [reflexivity|]; apply same_str_iff in E1; subst; split; [intros _; left; left; reflexivity|reflexivity]|].
  destruct (same_str nam (lit "BITPIX")) eqn:E2; [exists true; split; [reflexivity|]; apply same_str_iff in E2; subst; split; [intros _; left; right; left; reflexivity|reflexivity]|].
  eexists. split; [reflexivity|]. rewrite !Bool.orb_true_iff, !same_str_iff, R. cbn [map In].
  assert (N1 : lit "SIMPLE" <> nam) by (intros X; symmetry in X; apply same_str_iff in X; congruence).
  assert (N2 : lit "BITPIX" <> nam) by (intros X; symmetry in X; apply same_str_iff in X; congruence).
  intuition.
Qed.
Lemma entry_ok hdr i e l out : card_at hdr i = Ok e ->
  (left_out e /\ write_entries hdr (i :: l) out = write_entries hdr l out) \/
  (~ left_out e /\ write_entries hdr (i :: l) out = write_entries hdr l (out ++ [record e])).
Proof.
  intros C. cbn [write_entries]. rewrite C. cbn [obind]. destruct (begins_with_ok e (lit "END ")) as (r & E & R). rewrite E. cbn [obind].
  destruct r; [left; split; [left; now apply R|reflexivity]|].
  assert (NE : ~ exists b, e = word "END " ++ b) by (intros X; apply R in X; discriminate).
  destruct (eq_pos_ok e) as [(P & N)|(a & b & -> & N & P)]; rewrite P; cbn [obind].
  - right. split; [|reflexivity]. intros [X|(k & K & _)]; [contradiction|]. now apply named_not in K.
  - destruct (name_ok a b) as (nm & -> & S). cbn [obind]. destruct (internal_ok nm) as (x & -> & X). cbn [obind].
    assert (D : (exists k, named (a ++ "="%char :: b) k /\ describes k) <-> describes nm).
    { split; [intros (k & K & D); apply (named_iff a b k nm N S) in K; now subst|]. intros D. exists nm. split; [now apply (named_iff a b nm nm N S)|exact D]. }
    destruct x; [left|right]; (split; [|reflexivity]).
    + right. apply D, X. reflexivity.
    + intros [Y|Y]; [contradiction|]. apply D, X in Y. discriminate.
Qed.
Lemma record_full c : length c = 80 -> record c = c.
Proof. intros L. unfold record. rewrite firstn_app, L, Nat.sub_diag, firstn_O, app_nil_r. apply firstn_all2. lia. Qed.
Lemma record_short c : length c <= 80 -> record c = padded 80 c.
Proof.
  intros L. unfold record, padded. rewrite firstn_app, firstn_all2 by exact L. f_equal. rewrite <- (Nat.sub_add _ _ L) at 2.
  rewrite repeat_app, firstn_app, repeat_length, Nat.sub_diag, firstn_O, app_nil_r. apply firstn_all2. rewrite repeat_length. lia.
Qed.
Lemma card_mid p c rest : cards p -> length c = 80 -> card_at (concat p ++ c ++ rest) (length p) = Ok c.
Proof.
  intros P L. unfold card_at. replace (length p * 80) with (length (concat p)) by (rewrite concat_len by exact P; lia).
  replace (Nat.min 80 _) with (length c) by (rewrite !app_length; lia). apply substr_mid.
Qed.
Lemma card_last p tl : cards p -> length tl < 80 -> card_at (concat p ++ tl) (length p) = Ok tl.
Proof.
  intros P L. unfold card_at. replace (length p * 80) with (length (concat p)) by (rewrite concat_len by exact P; lia).
  replace (Nat.min 80 _) with (length tl) by (rewrite app_length; lia). rewrite <- (app_nil_r tl) at 1. apply substr_mid.
Qed.
Lemma write_entries_ok : forall l p tl out, cards (p ++ l) -> length tl < 80 ->
  exists r x, kept l r /\ ((left_out tl /\ x = []) \/ (~ left_out tl /\ x = [padded 80 tl])) /\
    write_entries (concat (p ++ l) ++ tl) (seq (length p) (length l + 1)) out = Ok (out ++ r ++ x).
Proof.
  induction l as [|c l IH]; intros p tl out C T.
  - cbn [length Nat.add seq]. rewrite app_nil_r in *. destruct (entry_ok _ _ _ [] out (card_last p tl C T)) as [(K & ->)|(K & ->)]; cbn [write_entries]; eexists [], _.
    + split; [constructor|]. split; [left; split; [exact K|reflexivity]|]. now rewrite !app_nil_r.
    + split; [constructor|]. split; [right; split; [exact K|reflexivity]|]. now rewrite record_short by lia.
  - cbn [length Nat.add seq]. assert (L : length c = 80) by (apply C, in_or_app; right; left; reflexivity).
    assert (E : concat (p ++ c :: l) ++ tl = concat p ++ c ++ (concat l ++ tl)) by (rewrite concat_app; cbn [concat]; now rewrite <- !app_assoc).
    assert (A : card_at (concat (p ++ c :: l) ++ tl) (length p) = Ok c) by (rewrite E; apply card_mid; [apply (proj1 (cards_app p (c :: l))), C|exact L]).
    assert (E' : p ++ c :: l = (p ++ [c]) ++ l) by (now rewrite <- app_assoc).
    destruct (entry_ok _ _ _ (seq (S (length p)) (length l + 1)) out A) as [(K & ->)|(K & ->)].
    + destruct (IH (p ++ [c]) tl out) as (r & x & R & X & W); [rewrite <- E'; exact C|exact T|]. exists r, x. split; [now apply kept_no|]. split; [exact X|].
      rewrite E'. rewrite app_length in W. cbn [length] in W. rewrite Nat.add_1_r in W. exact W.
    + destruct (IH (p ++ [c]) tl (out ++ [record c])) as (r & x & R & X & W); [rewrite <- E'; exact C|exact T|]. exists (c :: r), x.
      split; [now apply kept_yes|]. split; [exact X|]. rewrite E'. rewrite app_length in W. cbn [length] in W. rewrite Nat.add_1_r in W. rewrite W.
      rewrite record_full by exact L. now rewrite <- !app_assoc.
Qed.
Lemma write_header_ok l tl out : cards l -> length tl < 80 ->
  exists r x, kept l r /\ ((left_out tl /\ x = []) \/ (~ left_out tl /\ x = [padded 80 tl])) /\ write_header out (concat l ++ tl) = Ok (out ++ r ++ x).
Proof.
  intros C T. destruct (write_entries_ok l [] tl out C T) as (r & x & R & X & W). exists r, x. split; [exact R|]. split; [exact X|].
  unfold write_header. rewrite app_length, (concat_len l C). replace ((80 * length l + length tl) / 80) with (length l); [exact W|].
  rewrite Nat.mul_comm. rewrite Nat.div_add_l by lia. rewrite (Nat.div_small (length tl)) by exact T. lia.
Qed.
Lemma not_left_out_nil : ~ left_out [].
Proof. intros [(r & E)|(k & (a & b & E & _) & _)]; [discriminate|]. now destruct a. Qed.
Lemma kept_fun l r r' : kept l r -> kept l r' -> r = r'.
Proof. intros H. revert r'. induction H as [|c l r N H IH|c l r N H IH]; intros r' K; inversion K; subst; try contradiction; [reflexivity|f_equal|]; auto. Qed.
Lemma kept_in l r c : kept l r -> (In c r <-> In c l /\ ~ left_out c).
Proof.
  induction 1 as [|d l r N H IH|d l r N H IH]; cbn [In].
  - tauto.
  - rewrite IH. split; [intros [->|[]]; tauto|tauto].
  - rewrite IH. split; [tauto|]. intros [[->|I] K]; [contradiction|tauto].
Qed.
Lemma kept_app l l' r r' : kept l r -> kept l' r' -> kept (l ++ l') (r ++ r').
Proof. intros H K. induction H; cbn [app]; [exact K|now apply kept_yes|now apply kept_no]. Qed.
Lemma kept_all l : (forall c, In c l -> ~ left_out c) -> kept l l.
Proof. induction l as [|c l IH]; intros H; constructor; [apply H; left; reflexivity|]. apply IH. intros d I. apply H. right. exact I. Qed.
Lemma header_aligned l out : cards l -> exists r, kept l r /\ write_header out (concat l) = Ok (out ++ r ++ [blank]).
Proof.
  intros C. destruct (write_header_ok l [] out C) as (r & x & R & [(K & _)|(_ & ->)] & W); [cbn; lia|now apply not_left_out_nil in K|].
  exists r. split; [exact R|]. now rewrite app_nil_r in W.
Qed.
Lemma blank_kept : ~ left_out blank.
Proof.
  intros [(r & E)|(k & (a & b & E & _) & _)]; [discriminate|]. assert (I : In "="%char blank) by (rewrite E; apply in_or_app; right; left; reflexivity).
  apply repeat_spec in I. discriminate.
Qed.
Lemma named_left_out c k : named c k -> describes k -> left_out c.
Proof. intros N D. right. exists k. auto. Qed.
