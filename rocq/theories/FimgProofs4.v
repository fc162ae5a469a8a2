From Verif Require Import Base FimgModel FimgSpec FimgProofs FimgProofs2 FimgProofs3.
From Coq Require Import Lia.
Open Scope Z_scope.

Lemma both_room t u z : shared t u z -> shared u t z -> room (image_type t) (raw u z) /\ load t (raw u z) = Ok z /\ load u (raw u z) = Ok z.
Proof.
  intros (A & B & C) (_ & _ & D). assert (K := T63). assert (K2 := P63).
  destruct u.
  5:{ destruct t.
      5:{ assert (R := raw_room Uint z A). split; [exact R|]. assert (L : load Uint (raw Uint z) = Ok z) by (apply load_raw; [exact I|]; repeat split; auto; apply A). auto. }
      all: specialize (D eq_refl ltac:(discriminate)); cbn [exact] in *; change (2 ^ 63) with two63 in *; change (2 ^ 64) with two64 in *; cbn [raw];
        rewrite signed_small by lia; cbn [room image_type load]; rewrite ?within_ok by lia; cbn [omap obind]; rewrite ?wrap_small by lia;
        change (2 ^ 63) with two63; repeat split; try reflexivity; try lia. }
  all: destruct t; try specialize (C eq_refl ltac:(discriminate)); cbn [exact raw room image_type load] in *; change (2 ^ 63) with two63 in *; change (2 ^ 64) with two64 in *;
    rewrite ?within_ok by lia; cbn [omap obind]; rewrite ?wrap_small by lia; repeat split; try reflexivity; try lia.
Qed.
Lemma same_true a : same a a = true.
Proof. unfold same. destruct (list_eq_dec Z.eq_dec a a); congruence. Qed.
Lemma same_false a b : a <> b -> same a b = false.
Proof. unfold same. destruct (list_eq_dec Z.eq_dec a b); congruence. Qed.
Lemma update_eq k px t v0 v : length (dims v) = length (dims v0) -> is_convertible t k = true ->
  update (Holds (Image k (rev (dims v0)) px)) t v =
  (_ <- ensure (same (dims v) (dims v0)) ;; p <- omapl (store k t) (data v) ;; Ok (Holds (Image k (rev (dims v0)) p))).
Proof.
  intros E C. unfold update, read_prep. cbn [naxes ikind]. rewrite rev_length, <- E, Nat.eqb_refl, C. cbn [ensure obind naxes ikind]. cbv zeta.
  rewrite (reversed (rev (dims v0)) (length (dims v))) by (now rewrite rev_length). cbn [obind]. now rewrite rev_involutive.
Qed.
Lemma update_ok t u v0 v px : proper v -> dims v = dims v0 -> readable t u -> Forall (fun z => shared t u z /\ shared u t z) (data v) ->
  exists h, update (Holds (Image (image_type t) (rev (dims v0)) px)) u v = Ok h /\
    read h t (length (dims v)) = Ok v /\ read h u (length (dims v)) = Ok v.
Proof.
  intros P E R F. rewrite update_eq by (now rewrite ?E || now apply readable_convertible). rewrite E, same_true. cbn [ensure obind].
  rewrite store_all by (eapply Forall_impl; [|exact F]; cbn; intros z (A & B); now apply both_room). cbn [obind]. eexists. split; [reflexivity|].
  assert (FE : firstn (length (data v)) (map (raw u) (data v)) = map (raw u) (data v)) by (rewrite <- (map_length (raw u) (data v)); apply firstn_all).
  assert (LD : forall w, (forall z, shared t u z /\ shared u t z -> load w (raw u z) = Ok z) -> omapl (load w) (map (raw u) (data v)) = Ok (data v)).
  { intros w W. clear - F W. induction F as [|z l H F IH]; [reflexivity|]. cbn [map omapl]. rewrite (W z H). cbn [obind]. now rewrite IH. }
  rewrite <- E. split; apply read_intro; cbn [ikind naxes pixels]; rewrite ?map_length, ?FE; try exact P; try reflexivity.
  - apply readable_convertible. destruct t; exact I.
  - apply LD. intros z (A & B). now apply (both_room t u).
  - now apply readable_convertible.
  - apply LD. intros z (A & B). now apply (both_room t u).
Qed.
(* ranges that go too far *)
Lemma bounds_cases n r : (exists b, bounds n r = Ok b) \/ bounds n r = Throws.
Proof. destruct r; cbn [bounds]; try (left; eexists; reflexivity); match goal with |- context [ensure ?b] => destruct b end; cbn [ensure obind]; eauto. Qed.
Lemma bounds_outside n r : outside n r -> bounds n r = Throws.
Proof. destruct r; cbn [outside bounds]; intros H; try contradiction; match goal with |- context [?a <? ?b] => destruct (Z.ltb_spec a b); [lia|reflexivity] end. Qed.
Lemma bounds_all l : Exists (fun '(n, r) => outside n r) l -> omapl (fun '(n, r) => bounds n r) l = Throws.
Proof.
  induction 1 as [(n & r) l H|(n & r) l H IH]; cbn [omapl].
  - now rewrite bounds_outside.
  - destruct (bounds_cases n r) as [(b & E)|E]; rewrite E; cbn [obind]; [now rewrite IH|reflexivity].
Qed.
Lemma subset_outside h u n v args : read h u n = Ok v -> proper v -> length (dims v) <> length args \/ Exists (fun '(n, r) => outside n r) (combine (dims v) args) ->
  read_subset h u args = Throws.
Proof.
  intros R P V. destruct (read_inv _ _ _ _ R P) as (im & -> & C & N & L & LP & D).
  unfold read_subset, read_prep. rewrite N, rev_length. destruct (Nat.eqb_spec (length (dims v)) (length args)) as [LA|]; [|reflexivity].
  rewrite C. cbn [ensure obind]. destruct V as [|X]; [contradiction|].
  assert (I := indices_eq args (dims v) [] [] [] LA). cbn [length app] in I. rewrite !app_nil_r, (bounds_all _ X) in I. cbn [obind] in I. rewrite N, I. reflexivity.
Qed.
(* a range of one pixel less than none *)
Lemma subset_reversed h u n v r f : read h u n = Ok v -> proper v -> forall d, dims v = [d] -> 0 < d ->
  r = From d /\ f = d \/ (exists l, r = FromTo (l + 1) l /\ f = l + 1 /\ 0 <= l < d) -> read_subset h u [r] = UB.
Proof.
  intros R P d E D0 H. destruct (read_inv _ _ _ _ R P) as (im & -> & C & N & L & LP & D). destruct P as (P1 & P2 & P3). assert (K := P60). assert (K2 := T63).
  rewrite E in *. change (total [d]) with (d * 1) in *.
  assert (B : exists l, bounds d r = Ok (l + 2, l + 1) /\ 0 <= l + 1 <= d).
  { assert (W : forall z, 0 <= z <= d -> to_long (z + 1) = z + 1).
    { intros z Z. unfold to_long. rewrite wrap_small by lia. apply signed_small. lia. }
    destruct H as [(-> & ->)|(l & -> & -> & L0)].
    - exists (d - 1). cbn [bounds]. rewrite W by lia. split; [do 2 f_equal; lia|lia].
    - exists l. cbn [bounds]. destruct (Z.ltb_spec l d); [|lia]. cbn [ensure obind]. rewrite !W by lia. split; [do 2 f_equal; lia|lia]. }
  destruct B as (l & B & BL). unfold read_subset, read_prep. rewrite N. cbn [rev app length Nat.eqb]. rewrite C. cbn [ensure obind]. rewrite N.
  cbn [rev app make_indices length Nat.sub repeat]. unfold oget at 1. cbn [nth_error obind]. rewrite B. cbn [obind fst snd].
  cbn [oset upd length Nat.ltb Nat.leb obind omapl seq]. unfold oset. cbn [length Nat.ltb Nat.leb upd obind omapl seq]. unfold oget. cbn [nth_error Nat.sub obind].
  replace (l + 1 - (l + 2) + 1) with 0 by ring. cbn. unfold cfits_subset. rewrite N. cbn [rev app combine].
  replace (Z.of_nat (length (offsets [(d, (l + 2, l + 1))])) =? 0) with false; [now rewrite andb_false_r|].
  symmetry. apply Z.eqb_neq. cbn [offsets flat_map]. rewrite app_length, map_length, steps_len. lia.
Qed.
