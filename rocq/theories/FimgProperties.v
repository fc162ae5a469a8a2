(* C112: FITS images *)
From Verif Require Import Base FimgModel FimgSpec FimgProofs FimgProofs2 FimgProofs3 FimgProofs4.
From Coq Require Import Lia.
Open Scope Z_scope.

(* What is written is read back, in any number of dimensions, with the same type or with any type
   that has room for it. *)
Theorem C112_roundtrip : forall h t u v, h = NoHdu \/ h = Empty -> proper v -> readable t u -> Forall (shared t u) (data v) ->
  exists h', write h t v = Ok h' /\ read h' u (length (dims v)) = Ok v.
Proof.
  intros h t u v H P R F. eexists. split; [apply write_ok; [exact H|]|now apply written_read].
  eapply Forall_impl; [|exact F]. intros z (A & _). exact A.
Qed.
Print Assumptions C112_roundtrip.
Example C112_roundtrip_ex : exists h, write NoHdu Uint (Arr [2; 3] [1; 2; 3; 4; 5; 18446744073709551615]) = Ok h /\
  read h Uint 2 = Ok (Arr [2; 3] [1; 2; 3; 4; 5; 18446744073709551615]).
Proof. eexists. split; reflexivity. Qed.

(* One pixel of the file is the element of the array at these indices, in the order of the program. *)
Theorem C112_pixel : forall h u n v ids, read h u n = Ok v -> proper v -> valid (dims v) ids ->
  exists z, at_ v ids = Some z /\ read_pixel h u ids = Ok z.
Proof. exact read_pixel_ok. Qed.
Print Assumptions C112_pixel.
Example C112_pixel_ex : exists h, write NoHdu Int (Arr [2; 3] [10; 11; 12; 20; 21; 22]) = Ok h /\ read_pixel h Int [1; 0] = Ok 20 /\ read_pixel h Double [0; 2] = Ok 12.
Proof. eexists. repeat split; reflexivity. Qed.

(* A pixel outside of the image, or of another number of dimensions, is an error. *)
Theorem C112_pixel_outside : forall h u n v ids, read h u n = Ok v -> proper v -> Forall (fun i => 0 <= i) ids -> ~ valid (dims v) ids ->
  read_pixel h u ids = Throws.
Proof. exact read_pixel_outside. Qed.
Print Assumptions C112_pixel_outside.
Example C112_pixel_outside_ex : exists h, write NoHdu Int (Arr [2; 3] [10; 11; 12; 20; 21; 22]) = Ok h /\ read_pixel h Int [2; 0] = Throws /\ read_pixel h Int [1] = Throws.
Proof. eexists. repeat split; reflexivity. Qed.

(* Ranges which select pixels give the part of the array they select; an index keeps its dimension,
   of length 1. *)
Theorem C112_subset : forall h u n v args, read h u n = Ok v -> proper v -> Forall2 selects (dims v) args ->
  exists w, read_subset h u args = Ok w /\ part v args w.
Proof. exact subset_ok. Qed.
Print Assumptions C112_subset.
Example C112_subset_ex : exists h, write NoHdu Int (Arr [2; 3] [10; 11; 12; 20; 21; 22]) = Ok h /\
  read_subset h Int [All; FromTo 1 2] = Ok (Arr [2; 2] [11; 12; 21; 22]) /\ read_subset h Int [At 1; To 1] = Ok (Arr [1; 2] [20; 21]).
Proof. eexists. repeat split; reflexivity. Qed.

(* The whole image is one of its parts. *)
Theorem C112_whole : forall h u n v, read h u n = Ok v -> proper v -> Forall (fun d => 1 <= d) (dims v) ->
  read_subset h u (repeat All n) = Ok v.
Proof.
  intros h u n v R P D. destruct (read_inv _ _ _ _ R P) as (im & E1 & E2 & E3 & L & _).
  assert (V : Forall2 selects (dims v) (repeat All n)).
  { subst n. clear - D. induction D as [|d l H F IH]; cbn [length repeat]; constructor; [|exact IH]. unfold selects. cbn. lia. }
  destruct (subset_ok _ _ _ _ _ R P V) as (w & W & (W1 & W2 & W3)). rewrite W. f_equal.
  assert (DW : dims w = dims v).
  { rewrite W1. subst n. clear. induction (dims v) as [|d l IH]; [reflexivity|]. cbn [length repeat combine map first_of last_of]. rewrite IH. f_equal. lia. }
  destruct P as (P1 & P2 & P3).
  assert (LW : length (data w) = length (data v)) by (rewrite DW in W2; lia).
  destruct w as [wd ww], v as [vd vv]. cbn [dims data] in *. clear W1. subst wd. f_equal.
  assert (G : forall k, (k < length vv)%nat -> nth_error ww k = nth_error vv k).
  { intros k K.
    assert (X : exists ids, valid vd ids /\ place vd ids = Z.of_nat k).
    { assert (KT : 0 <= Z.of_nat k < total vd) by lia. generalize (Z.of_nat k) KT. clear - D. induction D as [|d l H F IH]; intros z KT.
      - exists []. split; [constructor|]. cbn in *. lia.
      - rewrite total_cons in KT. assert (TP := total_pos _ F). destruct (IH (z mod total l)) as (ids & V & Q); [apply Z.mod_pos_bound; lia|].
        exists (z / total l :: ids). split.
        + constructor; [|exact V]. split; [apply Z.div_pos; lia|]. apply Z.div_lt_upper_bound; nia.
        + cbn [place]. rewrite Q. assert (M := Z.div_mod z (total l) ltac:(lia)). lia. }
    destruct X as (ids & VI & Q). destruct (W3 ids VI) as (z & A & B).
    assert (LI := Forall2_len _ _ _ VI).
    assert (M : map (fun '(r, i) => first_of r + i) (combine (repeat All n) ids) = ids).
    { subst n. rewrite LI. clear. induction ids as [|i ids IH]; [reflexivity|]. cbn [length repeat combine map first_of]. rewrite IH. f_equal. }
    rewrite M in B. unfold at_ in A, B. cbn [dims data] in A, B. rewrite Q, Nat2Z.id in A, B. congruence. }
  clear - LW G. revert vv LW G. induction ww as [|x ww IH]; intros [|y vv] LW G; try discriminate; [reflexivity|].
  f_equal; [assert (H := G 0%nat ltac:(cbn; lia)); now injection H|]. apply IH; [now injection LW|]. intros k K. apply (G (S k)). cbn. lia.
Qed.
Print Assumptions C112_whole.
Example C112_whole_ex : exists h, write NoHdu Int (Arr [2; 2] [10; 11; 20; 21]) = Ok h /\ read_subset h Int [All; All] = Ok (Arr [2; 2] [10; 11; 20; 21]).
Proof. eexists. split; reflexivity. Qed.

(* A range of which the given end is past the image is an error, and so is another number of ranges. *)
Theorem C112_subset_outside : forall h u n v args, read h u n = Ok v -> proper v ->
  length (dims v) <> length args \/ Exists (fun '(n, r) => outside n r) (combine (dims v) args) -> read_subset h u args = Throws.
Proof. exact subset_outside. Qed.
Print Assumptions C112_subset_outside.
Example C112_subset_outside_ex : exists h, write NoHdu Int (Arr [2; 2] [10; 11; 20; 21]) = Ok h /\ read_subset h Int [All; To 2] = Throws /\ read_subset h Int [At 5; All] = Throws.
Proof. eexists. repeat split; reflexivity. Qed.

(* Finding: the start of a range is not checked against the image nor against its end.  For the range n-_ of n
   pixels, or (l+1)-_-l, the array is given no elements, and cfitsio writes pixels into it. *)
Theorem C112_start_UB : forall h u n v d r, read h u n = Ok v -> proper v -> dims v = [d] -> 0 < d ->
  r = From d \/ (exists l, r = FromTo (l + 1) l /\ 0 <= l < d) -> read_subset h u [r] = UB.
Proof.
  intros h u n v d r R P D D0 [->|(l & -> & L)]; [apply (subset_reversed h u n v _ d R P d D D0); auto|].
  apply (subset_reversed h u n v _ (l + 1) R P d D D0). right. exists l. auto.
Qed.
Print Assumptions C112_start_UB.
Example C112_start_UB_ex : exists h, write NoHdu Int (Arr [3] [10; 11; 12]) = Ok h /\ read_subset h Int [From 3] = UB /\ read_subset h Int [FromTo 2 1] = UB.
Proof. eexists. repeat split; reflexivity. Qed.

(* Finding: a start further away gives a negative length, which becomes a huge dimension; two of them
   have a small product, so that the array is allocated, with dimensions of 2^64-1 and one element. *)
Theorem C112_wrapped_UB : exists h, write NoHdu Int (Arr [3; 3] [1; 2; 3; 4; 5; 6; 7; 8; 9]) = Ok h /\
  read_subset h Int [FromTo 2 0; All] = Throws /\ allocate [two64 - 1; two64 - 1] = Ok 1 /\ read_subset h Int [FromTo 2 0; FromTo 2 0] = UB.
Proof. eexists. repeat split; reflexivity. Qed.
Print Assumptions C112_wrapped_UB.

(* An update replaces all the elements of an image of the same dimensions. *)
Theorem C112_update : forall h t u v0 v h1, h = NoHdu \/ h = Empty -> Forall (exact t) (data v0) -> write h t v0 = Ok h1 ->
  proper v -> dims v = dims v0 -> readable t u -> Forall (fun z => shared t u z /\ shared u t z) (data v) ->
  exists h2, update h1 u v = Ok h2 /\ read h2 t (length (dims v)) = Ok v /\ read h2 u (length (dims v)) = Ok v.
Proof. intros h t u v0 v h1 H F W P E R S. rewrite (write_ok h t v0 H F) in W. injection W as <-. now apply update_ok. Qed.
Print Assumptions C112_update.
Example C112_update_ex : exists h h', write NoHdu Short (Arr [2] [10; 11]) = Ok h /\ update h Int (Arr [2] [7; -8]) = Ok h' /\ read h' Short 1 = Ok (Arr [2] [7; -8]).
Proof. exists (Holds (Image KShort [2] [10; 11])), (Holds (Image KShort [2] [7; -8])). repeat split; reflexivity. Qed.

(* An array of other dimensions is an error. *)
Theorem C112_update_dims : forall h t u v0 v h1, h = NoHdu \/ h = Empty -> Forall (exact t) (data v0) -> write h t v0 = Ok h1 ->
  dims v <> dims v0 -> update h1 u v = Throws.
Proof.
  intros h t u v0 v h1 H F W E. rewrite (write_ok h t v0 H F) in W. injection W as <-.
  destruct (Nat.eq_dec (length (dims v)) (length (dims v0))) as [L|L].
  - destruct (is_convertible u (image_type t)) eqn:C.
    + rewrite update_eq by assumption. now rewrite same_false.
    + unfold update, read_prep. cbn [naxes ikind]. rewrite C. now destruct (_ =? _)%nat.
  - unfold update, read_prep. cbn [naxes]. rewrite rev_length. destruct (Nat.eqb_spec (length (dims v0)) (length (dims v))); [congruence|reflexivity].
Qed.
Print Assumptions C112_update_dims.
Example C112_update_dims_ex : exists h, write NoHdu Short (Arr [2; 3] [1; 2; 3; 4; 5; 6]) = Ok h /\ update h Short (Arr [3; 2] [1; 2; 3; 4; 5; 6]) = Throws.
Proof. eexists. split; reflexivity. Qed.

(* Finding: the type is checked in the direction of reading.  An image of doubles refuses an update by floats or
   integers, which it could hold; an image of shorts accepts doubles, and the update fails half-way for a value
   that is not a short. *)
Theorem C112_update_types_refuted :
  (forall h v0 v h1 u, h = NoHdu \/ h = Empty -> write h Double v0 = Ok h1 -> u <> Double -> update h1 u v = Throws) /\
  (forall h v0 h1, h = NoHdu \/ h = Empty -> write h Short v0 = Ok h1 -> dims v0 = [1] -> (forall z, data v0 = [z] -> -32768 <= z <= 32767) -> length (data v0) = 1%nat ->
    update h1 Double (Arr [1] [40000]) = Throws /\ exists h2, update h1 Double (Arr [1] [30000]) = Ok h2).
Proof.
  split.
  - intros h v0 v h1 u H W N. rewrite write_ok in W; [|exact H|apply Forall_forall; intros; exact I]. injection W as <-.
    unfold update, read_prep. cbn [naxes ikind image_type]. replace (is_convertible u KDouble) with false by (destruct u; try reflexivity; congruence). now destruct (_ =? _)%nat.
  - intros h v0 h1 H W D X L. destruct v0 as [ds [|z [|? ?]]]; try discriminate. cbn [dims data] in *. subst ds. specialize (X z eq_refl).
    rewrite write_ok in W; [|exact H|constructor; [exact X|constructor]]. injection W as <-. split; [reflexivity|eexists; reflexivity].
Qed.
Print Assumptions C112_update_types_refuted.
Example C112_update_types_ex : exists h, write NoHdu Double (Arr [1] [5]) = Ok h /\ update h Float (Arr [1] [6]) = Throws /\ update h Int (Arr [1] [6]) = Throws.
Proof. eexists. repeat split; reflexivity. Qed.

(* Reading with another number of dimensions, or as a type which has no room for the type of the file. *)
Theorem C112_mismatch : forall h t u v h1 n, h = NoHdu \/ h = Empty -> Forall (exact t) (data v) -> write h t v = Ok h1 ->
  n <> length (dims v) \/ ~ readable t u -> read h1 u n = Throws.
Proof.
  intros h t u v h1 n H F W N. rewrite (write_ok h t v H F) in W. injection W as <-. unfold read, read_prep. cbn [naxes ikind]. rewrite rev_length.
  destruct (Nat.eqb_spec (length (dims v)) n) as [E|]; [|reflexivity]. destruct N as [N|N]; [congruence|]. cbn [ensure obind].
  destruct (is_convertible u (image_type t)) eqn:C; [|reflexivity]. destruct N. now apply readable_convertible.
Qed.
Print Assumptions C112_mismatch.
Example C112_mismatch_ex : exists h, write NoHdu Double (Arr [2] [10; 11]) = Ok h /\ read h Float 1 = Throws /\ read h Double 2 = Throws.
Proof. eexists. repeat split; reflexivity. Qed.

(* An HDU with data in it is never overwritten; an empty one can be. *)
Theorem C112_once : forall h t u v w h1, Forall (exact t) (data v) -> write h t v = Ok h1 ->
  write h1 u w = CheckFail /\ write_empty h1 = CheckFail /\ (h = NoHdu \/ h = Empty) /\ write_empty h = Ok Empty.
Proof.
  intros h t u v w h1 F W. assert (H : h = NoHdu \/ h = Empty).
  { unfold write in W. rewrite (reversed (dims v)) in W by reflexivity. cbn [obind] in W. destruct h; cbn [check obind] in W; auto; discriminate. }
  rewrite (write_ok h t v H F) in W. injection W as <-. repeat split; auto.
  - unfold write. rewrite (reversed (dims w)) by reflexivity. reflexivity.
  - destruct H as [->| ->]; reflexivity.
Qed.
Print Assumptions C112_once.
Example C112_once_ex : write Table Int (Arr [1] [1]) = CheckFail /\ exists h, write Empty Int (Arr [1] [1]) = Ok h /\ write h Int (Arr [1] [2]) = CheckFail.
Proof. split; [reflexivity|eexists; split; reflexivity]. Qed.

(* Finding: unsigned integers of 2^63 and more are in the file as negative numbers, without the offset which FITS has for
   them: they are right only when read as unsigned again. *)
Theorem C112_unsigned_refuted : forall z, 2 ^ 63 <= z < 2 ^ 64 -> exists h, write NoHdu Uint (Arr [1] [z]) = Ok h /\
  read h Uint 1 = Ok (Arr [1] [z]) /\ read h Double 1 = Ok (Arr [1] [z - 2 ^ 64]) /\ read h Int 1 = Ok (Arr [1] [z - 2 ^ 64]).
Proof.
  intros z Z. assert (E : exact Uint z) by (split; [|apply Z]; eapply Z.le_trans; [|apply Z]; discriminate).
  assert (P : forall y, proper (Arr [1] [y])) by (intros y; split; [repeat constructor; discriminate|split; reflexivity]).
  eexists. split; [apply write_ok; [auto|constructor; [exact E|constructor]]|].
  split; [apply (written_read Uint Uint); [apply P|exact I|constructor; [|constructor]]; split; [exact E|split; [exact E|congruence]]|].
  assert (R : raw Uint z = z - 2 ^ 64) by (cbn [raw]; apply signed_big; exact Z).
  cbn [data map dims rev app]. rewrite R. assert (K := T63). change (2 ^ 64) with two64 in *. change (2 ^ 63) with two63 in *.
  split; [reflexivity|]. unfold read, read_prep. cbn.
  change (Pos.to_nat 1) with 1%nat. cbn [firstn omapl load].
  unfold within. destruct (Z.leb_spec (- two63) (z - two64)), (Z.leb_spec (z - two64) (two63 - 1)); try lia. reflexivity.
Qed.
Print Assumptions C112_unsigned_refuted.
