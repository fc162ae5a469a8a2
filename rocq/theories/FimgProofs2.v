From Verif Require Import Base FimgModel FimgSpec FimgProofs.
From Coq Require Import Lia.
Open Scope Z_scope.

Lemma store_all k t l : Forall (fun z => room k (raw t z)) l -> omapl (store k t) l = Ok (map (raw t) l).
Proof. induction 1 as [|z l H F IH]; [reflexivity|]. cbn [omapl map]. rewrite (store_ok _ _ _ H). cbn [obind]. now rewrite IH. Qed.
Lemma load_all t u l : readable t u -> Forall (shared t u) l -> omapl (load u) (map (raw t) l) = Ok l.
Proof. intros R. induction 1 as [|z l H F IH]; [reflexivity|]. cbn [omapl map]. rewrite (load_raw _ _ _ R H). cbn [obind]. now rewrite IH. Qed.
Lemma write_ok h t v : h = NoHdu \/ h = Empty -> Forall (exact t) (data v) -> write h t v = Ok (Holds (Image (image_type t) (rev (dims v)) (map (raw t) (data v)))).
Proof.
  intros H F. unfold write. rewrite (reversed (dims v)) by reflexivity. cbn [obind].
  replace (check match h with NoHdu | Empty => true | _ => false end) with (@Ok unit tt) by (destruct H as [->| ->]; reflexivity). cbn [obind].
  rewrite store_all; [reflexivity|]. eapply Forall_impl; [|exact F]. intros z. apply raw_room.
Qed.
Lemma written_read t u v : proper v -> readable t u -> Forall (shared t u) (data v) ->
  read (Holds (Image (image_type t) (rev (dims v)) (map (raw t) (data v)))) u (length (dims v)) = Ok v.
Proof.
  intros P R F. apply read_intro; cbn [ikind naxes pixels]; [now apply readable_convertible|reflexivity|exact P|now rewrite map_length|].
  rewrite <- (map_length (raw t) (data v)), firstn_all. now apply load_all.
Qed.

(* positions: FITS order *)
Fixpoint fplace (ns ps : list Z) : Z := match ns, ps with n :: ns, p :: ps => p + n * fplace ns ps | _, _ => 0 end.
Lemma fplace_app a b p x : length a = length p -> fplace (a ++ b) (p ++ x) = fplace a p + total a * fplace b x.
Proof.
  revert p. induction a as [|n a IH]; intros [|q p] E; try discriminate.
  - change (fplace b x = 0 + 1 * fplace b x). ring.
  - cbn [app fplace]. rewrite total_cons. rewrite IH by (cbn in E; lia). ring.
Qed.
Lemma place_rev ds ids : length ds = length ids -> place ds ids = fplace (rev ds) (rev ids).
Proof.
  revert ids. induction ds as [|d ds IH]; intros [|i ids] E; try discriminate; [reflexivity|]. cbn [length] in E.
  cbn [place rev]. rewrite fplace_app by (rewrite !rev_length; lia). rewrite <- IH by lia. rewrite total_rev. cbn [fplace]. ring.
Qed.
Lemma fplace_range ns ps : Forall2 (fun d i => 0 <= i < d) ns ps -> 0 <= fplace ns ps < total ns.
Proof.
  induction 1 as [|n p ns ps H F IH]; [cbn; lia|]. cbn [fplace]. rewrite total_cons. nia.
Qed.
Lemma Forall2_app' {A B} (P : A -> B -> Prop) a b c d : Forall2 P a c -> Forall2 P b d -> Forall2 P (a ++ b) (c ++ d).
Proof. induction 1; cbn [app]; auto. Qed.
Lemma Forall2_rev' {A B} (P : A -> B -> Prop) a b : Forall2 P a b -> Forall2 P (rev a) (rev b).
Proof. induction 1; cbn [rev]; [constructor|]. apply Forall2_app'; auto. Qed.
Lemma Forall2_len {A B} (P : A -> B -> Prop) a b : Forall2 P a b -> length a = length b.
Proof. induction 1; cbn; auto. Qed.

(* one pixel *)
Lemma pixel_loop (N P : list Z) : Forall2 (fun d i => 0 <= i < d) N P -> total N < two63 -> forall pre q, Forall2 (fun d i => 0 <= i < d) pre q ->
  forall NN PP, NN = pre ++ N -> PP = rev P ++ rev q -> total NN < two63 ->
  ofold (pixel_step NN PP) (seq (length pre) (length N)) (true, (1 + fplace pre q, total pre)) = Ok (true, (1 + fplace NN (q ++ P), total NN)).
Proof.
  induction 1 as [|n p N P H F IH]; intros T pre q Q NN PP E1 E2 T2.
  - rewrite app_nil_r in *. subst NN. reflexivity.
  - cbn [length seq ofold]. assert (LQ := Forall2_len _ _ _ Q). assert (LP := Forall2_len _ _ _ F).
    assert (G1 : oget PP (length PP - 1 - length pre) = Ok p).
    { subst PP. cbn [rev]. rewrite <- app_assoc. unfold oget. 
      replace (length (rev P ++ [p] ++ rev q) - 1 - length pre)%nat with (length (rev P)) by (rewrite !app_length, !rev_length; cbn [length]; lia).
      rewrite nth_error_app2 by (apply Nat.le_refl). rewrite Nat.sub_diag. reflexivity. }
    assert (G2 : oget NN (length pre) = Ok n).
    { subst NN. unfold oget. rewrite nth_error_app2 by (apply Nat.le_refl). rewrite Nat.sub_diag. reflexivity. }
    unfold pixel_step at 1. rewrite G1, G2. cbn [obind andb]. destruct (Z.ltb_spec p n); [|lia].
    assert (R := fplace_range _ _ Q). assert (TP : 1 <= total pre) by lia. assert (R2 := fplace_range _ _ F).
    assert (TN : total NN = total pre * (n * total N)) by (subst NN; now rewrite total_app, total_cons).
    assert (B : total pre * n <= total NN).
    { rewrite TN. assert (1 <= total N) by lia. assert (0 <= total pre * n) by nia. replace (total pre * (n * total N)) with (total pre * n * total N) by ring. nia. }
    assert (K := T63). assert (B2 : p * total pre + fplace pre q + 1 <= total pre * n) by nia.
    assert (B3 : 0 <= p * total pre) by nia.
    rewrite (wrap_small (p * total pre)) by lia.
    rewrite (wrap_small (1 + fplace pre q + p * total pre)) by lia.
    rewrite (wrap_small (total pre * n)) by nia.
    specialize (IH ltac:(rewrite total_cons in T; nia) (pre ++ [n]) (q ++ [p])).
    rewrite app_length in IH. cbn [length] in IH. rewrite Nat.add_1_r in IH.
    rewrite fplace_app in IH by exact LQ. rewrite total_app in IH.
    change (total [n]) with (n * 1) in IH. change (fplace [n] [p]) with (p + n * 0) in IH.
    replace (total pre * (n * 1)) with (total pre * n) in IH by ring.
    replace (1 + (fplace pre q + total pre * (p + n * 0))) with (1 + fplace pre q + p * total pre) in IH by ring.
    rewrite IH with (PP := PP) (NN := NN).
    + now rewrite <- app_assoc.
    + apply Forall2_app'; [exact Q|]. constructor; [exact H|constructor].
    + subst NN. now rewrite <- app_assoc.
    + subst PP. rewrite rev_app_distr. cbn [rev app]. now rewrite <- app_assoc.
    + exact T2.
Qed.
Lemma read_pixel_ok h u n v ids : read h u n = Ok v -> proper v -> valid (dims v) ids -> exists z, at_ v ids = Some z /\ read_pixel h u ids = Ok z.
Proof.
  intros R P V. destruct (read_inv _ _ _ _ R P) as (im & -> & C & N & L & LP & D). destruct P as (P1 & P2 & P3).
  assert (LV := Forall2_len _ _ _ V). assert (FR := fplace_range _ _ (Forall2_rev' _ _ _ V)). rewrite total_rev, <- place_rev in FR by exact LV.
  unfold read_pixel, read_prep. rewrite N, rev_length, LV, Nat.eqb_refl, C. cbn [ensure obind].
  assert (K := P60). assert (K2 := T63).
  assert (W := pixel_loop (rev (dims v)) (rev ids) (Forall2_rev' _ _ _ V) ltac:(rewrite total_rev; lia) [] [] (Forall2_nil _) (rev (dims v)) ids eq_refl).
  rewrite rev_involutive, app_nil_r in W. specialize (W eq_refl ltac:(rewrite total_rev; lia)).
  cbn [length fplace] in W. change (total []) with 1 in W. change (1 + 0) with 1 in W. rewrite rev_length, LV in W. rewrite N, W. cbn [obind ensure].
  cbn [app]. rewrite <- place_rev by exact LV. replace (1 + place (dims v) ids - 1) with (place (dims v) ids) by ring.
  set (k := Z.to_nat (place (dims v) ids)). assert (KL : (k < length (data v))%nat) by (unfold k; lia).
  assert (X : nth_error (pixels im) k <> None) by (apply nth_error_Some; lia).
  destruct (nth_error (pixels im) k) as [x|] eqn:E; [|congruence].
  assert (E' : nth_error (firstn (length (data v)) (pixels im)) k = Some x).
  { rewrite <- (firstn_skipn (length (data v)) (pixels im)) in E. rewrite nth_error_app1 in E; [exact E|]. rewrite firstn_length. lia. }
  destruct (omapl_nth _ _ _ _ _ D E') as (z & Z1 & Z2). exists z. split; [exact Z2|exact Z1].
Qed.
(* a pixel outside *)
Lemma pixel_false NN PP l st r : fst st = false -> ofold (pixel_step NN PP) l st = Ok r -> fst r = false.
Proof.
  revert st. induction l as [|i l IH]; intros (ok & ppos & pitch) H; cbn [ofold]; [intros [= <-]; exact H|]. cbn [fst] in H. subst ok.
  unfold pixel_step at 1. destruct (oget PP (length PP - 1 - i)) as [x| | | |]; cbn [obind]; try discriminate.
  destruct (oget NN i) as [y| | | |]; cbn [obind]; try discriminate. apply IH. reflexivity.
Qed.
Lemma pixel_total NN PP : length NN = length PP -> forall l st, (forall i, In i l -> (i < length NN)%nat) -> exists r, ofold (pixel_step NN PP) l st = Ok r /\
  (fst r = true -> fst st = true /\ forall i, In i l -> exists p n, nth_error PP (length PP - 1 - i) = Some p /\ nth_error NN i = Some n /\ p < n).
Proof.
  intros E. induction l as [|i l IH]; intros (ok & ppos & pitch) H; [exists (ok, (ppos, pitch)); split; [reflexivity|]; intros K; split; [exact K|intros ? []]|].
  assert (Hi := H i (or_introl eq_refl)). cbn [ofold]. unfold pixel_step at 1.
  destruct (nth_error PP (length PP - 1 - i)) as [p|] eqn:E1; [|apply nth_error_None in E1; lia].
  destruct (nth_error NN i) as [n|] eqn:E2; [|apply nth_error_None in E2; lia].
  unfold oget at 1 2. rewrite E1, E2. cbn [obind].
  edestruct (IH (ok && (p <? n), (wrap64 (ppos + wrap64 (p * pitch)), wrap64 (pitch * n)))) as (r & R1 & R2); [intros j J; apply H; now right|].
  exists r. split; [exact R1|]. intros T. destruct (R2 T) as (A & B). cbn [fst] in *. apply andb_prop in A. destruct A as (A1 & A2).
  split; [exact A1|]. intros j [<-|J]; [|now apply B]. exists p, n. repeat split; auto. now apply Z.ltb_lt.
Qed.
Lemma Forall2_nth {A B} (P : A -> B -> Prop) a b : length a = length b -> (forall i x y, nth_error a i = Some x -> nth_error b i = Some y -> P x y) -> Forall2 P a b.
Proof.
  revert b. induction a as [|x a IH]; intros [|y b] E H; try discriminate; [constructor|]. constructor; [apply (H 0%nat); reflexivity|].
  apply IH; [now injection E|]. intros i. apply (H (S i)).
Qed.
Lemma nth_error_rev {A} (l : list A) i : (i < length l)%nat -> nth_error (rev l) i = nth_error l (length l - 1 - i).
Proof.
  intros H. destruct l as [|d l']; [cbn in H; lia|]. set (l := d :: l') in *. rewrite (nth_error_nth' (rev l) d) by (now rewrite rev_length).
  rewrite (nth_error_nth' l d) by lia. f_equal. rewrite rev_nth by exact H. f_equal. lia.
Qed.
Lemma read_pixel_outside h u n v ids : read h u n = Ok v -> proper v -> Forall (fun i => 0 <= i) ids -> ~ valid (dims v) ids -> read_pixel h u ids = Throws.
Proof.
  intros R P F V. destruct (read_inv _ _ _ _ R P) as (im & -> & C & N & L & LP & D).
  unfold read_pixel, read_prep. rewrite N, rev_length. destruct (Nat.eqb_spec (length (dims v)) (length ids)) as [E|]; [|reflexivity].
  rewrite C. cbn [ensure obind]. rewrite N.
  destruct (pixel_total (rev (dims v)) ids ltac:(now rewrite rev_length) (seq 0 (length ids)) (true, (1, 1))) as ((ok & ppos & pitch) & R1 & R2).
  { intros i I. apply in_seq in I. rewrite rev_length. lia. }
  rewrite R1. cbn [obind]. destruct ok; [|reflexivity]. destruct V. destruct (R2 eq_refl) as (_ & R3).
  apply Forall2_nth; [exact E|]. intros i x y X Y. assert (I : (i < length ids)%nat) by (apply nth_error_Some; congruence).
  destruct (R3 (length ids - 1 - i)%nat) as (p & n' & A1 & A2 & A3); [apply in_seq; lia|].
  replace (length ids - 1 - (length ids - 1 - i))%nat with i in A1 by lia. rewrite nth_error_rev in A2 by lia.
  replace (length (dims v) - 1 - (length ids - 1 - i))%nat with i in A2 by lia.
  assert (y = p) by congruence. assert (x = n') by congruence. subst. split; [|exact A3].
  rewrite Forall_forall in F. apply F. now apply nth_error_In with i.
Qed.
