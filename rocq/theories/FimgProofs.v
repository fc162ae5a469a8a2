From Verif Require Import Base FimgModel FimgSpec.
From Coq Require Import Lia.
Open Scope Z_scope.

Lemma total_app a b : total (a ++ b) = total a * total b.
Proof. induction a as [|x a IH]; [change (total b = 1 * total b); ring|]. change (x * total (a ++ b) = x * total a * total b). rewrite IH. ring. Qed.
Lemma total_cons x a : total (x :: a) = x * total a.
Proof. reflexivity. Qed.
Lemma total_rev a : total (rev a) = total a.
Proof. induction a as [|x a IH]; [reflexivity|]. cbn [rev]. rewrite total_app, IH. change (total a * (x * 1) = x * total a). ring. Qed.
Lemma total_nonneg a : Forall (fun d => 0 <= d) a -> 0 <= total a.
Proof. induction 1 as [|x a H F IH]; [cbn; lia|]. rewrite total_cons. nia. Qed.
Lemma total_pos a : Forall (fun d => 1 <= d) a -> 1 <= total a.
Proof. induction 1 as [|x a H F IH]; [cbn; lia|]. rewrite total_cons. nia. Qed.
Lemma total_ge a : Forall (fun d => 1 <= d) a -> Forall (fun d => d <= total a) a.
Proof.
  induction 1 as [|x a H F IH]; [constructor|]. rewrite total_cons. assert (P := total_pos a F). constructor; [nia|].
  eapply Forall_impl; [|exact IH]. cbn. intros d D. nia.
Qed.

(* reversed axes *)
Lemma omapl_ok {A B} (f : A -> outcome B) (g : A -> B) l : (forall x, In x l -> f x = Ok (g x)) -> omapl f l = Ok (map g l).
Proof. induction l as [|x l IH]; intros H; [reflexivity|]. cbn [omapl map]. rewrite H by (left; reflexivity). cbn [obind]. rewrite IH; [reflexivity|]. intros y Y. apply H. now right. Qed.
Lemma oget_rev {A} (l : list A) i d : (i < length l)%nat -> oget l (length l - 1 - i) = Ok (nth i (rev l) d).
Proof.
  intros H. unfold oget. rewrite (rev_nth l d) by exact H. replace (length l - S i)%nat with (length l - 1 - i)%nat by lia.
  assert (K : (length l - 1 - i < length l)%nat) by lia. rewrite (nth_error_nth' l d K). reflexivity.
Qed.
Lemma map_nth_seq {A} (l : list A) d : map (fun i => nth i l d) (seq 0 (length l)) = l.
Proof. induction l as [|x l IH]; [reflexivity|]. cbn [length seq map]. rewrite <- seq_shift, map_map. cbn [nth]. now rewrite IH. Qed.
Lemma reversed (l : list Z) n : n = length l -> omapl (fun i => oget l (n - 1 - i)) (seq 0 n) = Ok (rev l).
Proof.
  intros ->. rewrite (omapl_ok _ (fun i => nth i (rev l) 0)).
  - rewrite <- (rev_length l). now rewrite map_nth_seq.
  - intros i I. apply in_seq in I. apply oget_rev. lia.
Qed.
Lemma wrap_mul a b : wrap64 (wrap64 a * b) = wrap64 (a * b).
Proof. unfold wrap64. now rewrite Z.mul_mod_idemp_l by discriminate. Qed.
Lemma alloc_fold ds a : fold_left (fun a d => wrap64 (a * d)) ds (wrap64 a) = wrap64 (a * total ds).
Proof.
  revert a. induction ds as [|d ds IH]; intros a; cbn [fold_left]; [cbn; now rewrite Z.mul_1_r|].
  rewrite wrap_mul, IH, total_cons. f_equal. ring.
Qed.
Lemma allocate_eq ds : allocate ds = if wrap64 (total ds) <? huge then Ok (wrap64 (total ds)) else Throws.
Proof. unfold allocate. assert (E := alloc_fold ds 1). rewrite Z.mul_1_l in E. change (wrap64 1) with 1 in E. rewrite E. reflexivity. Qed.
Lemma wrap_small z : 0 <= z < two64 -> wrap64 z = z.
Proof. intros H. unfold wrap64. now apply Z.mod_small. Qed.
Lemma allocate_ok ds : Forall (fun d => 0 <= d) ds -> total ds < 2 ^ 60 -> allocate ds = Ok (total ds).
Proof.
  intros F T. rewrite allocate_eq. assert (P := total_nonneg ds F). rewrite wrap_small by (split; [exact P|]; eapply Z.lt_trans; [exact T|reflexivity]).
  unfold huge. destruct (Z.ltb_spec (total ds) (2 ^ 60)); [reflexivity|lia].
Qed.
Lemma omapl_len {A B} (f : A -> outcome B) l r : omapl f l = Ok r -> length r = length l.
Proof.
  revert r. induction l as [|x l IH]; intros r; cbn [omapl]; [intros [= <-]; reflexivity|].
  destruct (f x) as [y| | | |]; cbn [obind]; try discriminate. destruct (omapl f l) as [s| | | |]; cbn [obind]; try discriminate.
  intros [= <-]. cbn. now rewrite (IH s).
Qed.
Lemma omapl_nth {A B} (f : A -> outcome B) l r i x : omapl f l = Ok r -> nth_error l i = Some x -> exists y, f x = Ok y /\ nth_error r i = Some y.
Proof.
  revert r i. induction l as [|a l IH]; intros r i; cbn [omapl]; [destruct i; discriminate|].
  destruct (f a) as [b| | | |] eqn:E; cbn [obind]; try discriminate. destruct (omapl f l) as [s| | | |] eqn:E'; cbn [obind]; try discriminate.
  intros [= <-]. destruct i as [|i]; cbn [nth_error]; [intros [= <-]; now exists b|]. now apply IH.
Qed.

(* what a successful read tells *)
Lemma read_inv h u n v : read h u n = Ok v -> proper v ->
  exists im, h = Holds im /\ is_convertible u (ikind im) = true /\ naxes im = rev (dims v) /\ length (dims v) = n /\
    (length (data v) <= length (pixels im))%nat /\ omapl (load u) (firstn (length (data v)) (pixels im)) = Ok (data v).
Proof.
  unfold read, read_prep. destruct h as [| |im|]; try discriminate. intros H (P1 & P2 & P3).
  destruct (Nat.eqb_spec (length (naxes im)) n) as [E|]; [|discriminate]. cbn [ensure obind] in H.
  destruct (is_convertible u (ikind im)) eqn:C; [|discriminate]. cbn [ensure obind] in H.
  rewrite (reversed (naxes im)) in H by reflexivity. cbn [obind] in H.
  destruct (allocate (rev (naxes im))) as [k| | | |] eqn:A; try discriminate. cbn [obind] in H.
  destruct (Z.leb_spec k (Z.of_nat (length (pixels im)))) as [L|]; [|discriminate]. cbn [ensure obind] in H.
  destruct (omapl (load u) (firstn (Z.to_nat k) (pixels im))) as [d| | | |] eqn:D; try discriminate. cbn [obind] in H.
  injection H as <-. cbn [dims data] in *. rewrite allocate_ok in A by assumption. injection A as <-.
  exists im. rewrite rev_involutive. assert (N : length d = Z.to_nat (total (rev (naxes im)))) by lia.
  repeat split; try assumption; [now rewrite rev_length|lia|]. now rewrite N.
Qed.
Lemma read_intro im u v : is_convertible u (ikind im) = true -> naxes im = rev (dims v) -> proper v -> (length (data v) <= length (pixels im))%nat ->
  omapl (load u) (firstn (length (data v)) (pixels im)) = Ok (data v) -> read (Holds im) u (length (dims v)) = Ok v.
Proof.
  intros C N (P1 & P2 & P3) L D. unfold read, read_prep. rewrite N, rev_length, Nat.eqb_refl, C. cbn [ensure obind].
  cbv zeta. rewrite ?N, ?rev_length. rewrite (reversed (rev (dims v)) (length (dims v))) by (now rewrite rev_length). cbn [obind]. rewrite rev_involutive, allocate_ok by assumption. cbn [obind].
  rewrite <- P3, Nat2Z.id. destruct (Z.leb_spec (Z.of_nat (length (data v))) (Z.of_nat (length (pixels im)))); [|lia]. cbn [ensure obind].
  rewrite D. cbn [obind]. now destruct v.
Qed.

(* values *)
Lemma within_ok lo hi z : lo <= z <= hi -> within lo hi z = Ok z.
Proof. intros H. unfold within. destruct (Z.leb_spec lo z), (Z.leb_spec z hi); try lia. reflexivity. Qed.
Lemma signed_small z : 0 <= z < two63 -> to_signed64 z = z.
Proof. intros H. unfold to_signed64. destruct (Z.ltb_spec z two63); lia. Qed.
Lemma signed_big z : two63 <= z < two64 -> to_signed64 z = z - two64.
Proof. intros H. unfold to_signed64. destruct (Z.ltb_spec z two63); lia. Qed.
Lemma readable_convertible t u : readable t u <-> is_convertible u (image_type t) = true.
Proof. destruct t, u; cbn; split; intros; try reflexivity; try discriminate; auto; contradiction. Qed.
Lemma T63 : two64 = 2 * two63. Proof. reflexivity. Qed.
Lemma P63 : 2147483648 < two63. Proof. reflexivity. Qed.
Lemma P60 : 2 ^ 60 < two63. Proof. reflexivity. Qed.
(* the value in the file *)
Definition raw (t : etype) (z : Z) : Z := match t with Uint => to_signed64 z | _ => z end.
(* what a kind of file can hold *)
Definition room (k : kind) (z : Z) : Prop :=
  match k with
  | KByte => 0 <= z <= 255 | KSbyte => -128 <= z <= 127 | KShort => -32768 <= z <= 32767
  | KLong => - 2 ^ 31 <= z < 2 ^ 31 | KLonglong => - 2 ^ 63 <= z < 2 ^ 63 | KFloat | KDouble => True
  end.
Lemma store_ok k t z : room k (raw t z) -> store k t z = Ok (raw t z).
Proof.
  intros H. unfold store. fold (raw t z). destruct k; cbn [room] in H; try reflexivity; apply within_ok; try exact H.
  - change (2 ^ 31) with 2147483648 in H. lia.
  - change (2 ^ 63) with two63 in H. lia.
Qed.
Lemma raw_room t z : exact t z -> room (image_type t) (raw t z).
Proof.
  destruct t; cbn [exact room image_type raw]; intros H; try exact I; try lia.
  change (2 ^ 64) with two64 in *. change (2 ^ 63) with two63. assert (K := T63).
  destruct (Z.lt_ge_cases z two63); [rewrite signed_small|rewrite signed_big]; lia.
Qed.
Lemma load_raw t u z : readable t u -> shared t u z -> load u (raw t z) = Ok z.
Proof.
  intros R0 (A & B & C). assert (K := T63). assert (K2 := P63). change (2 ^ 63) with two63 in *.
  assert (W : t <> Uint \/ (t = Uint /\ u <> Uint) \/ (t = Uint /\ u = Uint)) by (destruct t, u; intuition discriminate).
  assert (G : u <> Uint -> load u z = Ok z).
  { intros N. destruct u; cbn [load exact] in *; try reflexivity; try (apply within_ok; change (2 ^ 63) with two63 in *; lia). congruence. }
  assert (G2 : u = Uint -> forall y, - two63 <= y < two63 -> load u y = Ok (wrap64 y)).
  { intros -> y Y. cbn [load]. rewrite within_ok by lia. reflexivity. }
  destruct W as [N|[(-> & N)|(-> & ->)]].
  - replace (raw t z) with z by (destruct t; try reflexivity; congruence). destruct u; try (apply G; discriminate).
    cbn [exact] in B. change (2 ^ 64) with two64 in B. assert (Z : z < two63).
    { destruct t; cbn [exact] in A; change (2 ^ 63) with two63 in *; try lia; try congruence; destruct R0. }
    rewrite G2 by (reflexivity || lia). f_equal. apply wrap_small. lia.
  - specialize (C eq_refl N). cbn [raw exact] in *. rewrite signed_small by lia. auto.
  - cbn [raw exact] in *. change (2 ^ 64) with two64 in *. assert (R := raw_room Uint z A). cbn [raw room image_type] in R.
    change (2 ^ 63) with two63 in R. rewrite G2 by (reflexivity || lia). f_equal. unfold wrap64.
    destruct (Z.lt_ge_cases z two63); [rewrite signed_small by lia; apply Z.mod_small; lia|].
    rewrite signed_big by lia. replace (z - two64) with (z + (-1) * two64) by ring. rewrite Z.mod_add by discriminate. apply Z.mod_small. lia.
Qed.
