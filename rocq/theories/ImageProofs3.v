(* Lemmas on image operations, part 3: flips, sub-regions, boxcar windows. *)
From Coq Require Import NArith ZifyBool ZifyNat.
From Verif Require Import Base IndexModel IndexProofs VecModel VecProofs VecProofs2 ImageModel ImageSpec ImageProofs ImageProofs2.

Lemma NoDup_list_prod {B C} (l : list B) (l' : list C) : NoDup l -> NoDup l' -> NoDup (list_prod l l').
Proof.
  intros H H'. induction H as [|a l Ha H IH]; cbn [list_prod]; [constructor|].
  apply NoDup_app_intro; [|exact IH|].
  - apply NoDup_map_inj; [exact H'|]. intros x y _ _ E. congruence.
  - intros [x y] H1 H2. apply in_map_iff in H1. destruct H1 as (z & E & _). injection E as <- <-.
    apply in_prod_iff in H2. tauto.
Qed.

Lemma zpos_bound N M x y : (0 <= x < N -> 0 <= y < M -> 0 <= x * M + y < N * M)%Z.
Proof. intros H1 H2. nia. Qed.
Lemma zpos_nat m x y : (0 <= x)%Z -> (0 <= y)%Z -> Z.to_nat (x * Z.of_nat m + y) = Z.to_nat x * m + Z.to_nat y.
Proof.
  intros H1 H2. rewrite Z2Nat.inj_add by (try apply Z.mul_nonneg_nonneg; lia).
  rewrite Z2Nat.inj_mul by lia. rewrite Nat2Z.id. reflexivity.
Qed.
Definition prod_eq_dec' (p q : Z * Z) : {p = q} + {p <> q}.
Proof. decide equality; apply Z.eq_dec. Defined.

Section I.
Context {A : Type}.
Implicit Types (v w : img A) (def : A) (d : list A).

(* ---- flips ---- *)
Lemma swap_all {P} (a b : P -> nat) : forall ps d,
  NoDup ps -> (forall p, In p ps -> a p < length d /\ b p < length d /\ a p <> b p) ->
  (forall p q, In p ps -> In q ps -> p <> q -> a p <> a q /\ a p <> b q /\ b p <> b q) ->
  exists d', ofold (fun d p => x <- oget d (a p) ;; y <- oget d (b p) ;; d <- oset d (a p) y ;; oset d (b p) x) ps d = Ok d' /\
    length d' = length d /\
    (forall p, In p ps -> nth_error d' (a p) = nth_error d (b p) /\ nth_error d' (b p) = nth_error d (a p)) /\
    (forall k, (forall p, In p ps -> a p <> k /\ b p <> k) -> nth_error d' k = nth_error d k).
Proof.
  induction ps as [|p ps IH]; intros d Hn Hb Hd.
  - exists d. cbn [ofold]. repeat split; auto; contradiction.
  - inversion Hn as [|? ? N1 N2]; subst.
    destruct (Hb p (or_introl eq_refl)) as (B1 & B2 & B3).
    cbn [ofold]. unfold oget at 1 2.
    destruct (nth_error d (a p)) as [x|] eqn:Ea; [|apply nth_error_None in Ea; lia]. cbn [obind].
    destruct (nth_error d (b p)) as [y|] eqn:Eb; [|apply nth_error_None in Eb; lia]. cbn [obind].
    unfold oset at 1. destruct (Nat.ltb_spec (a p) (length d)); [|lia]. cbn [obind].
    unfold oset at 1. rewrite upd_length. destruct (Nat.ltb_spec (b p) (length d)); [|lia]. cbn [obind].
    destruct (IH (upd (upd d (a p) y) (b p) x)) as (d' & E & L & S & O); auto.
    { intros q Hq. rewrite !upd_length. apply Hb. right; exact Hq. }
    { intros q r Hq Hr. apply Hd; right; assumption. }
    rewrite !upd_length in L.
    exists d'. split; [exact E|]. split; [exact L|]. split.
    + intros q [<-|Hq].
      * rewrite !O.
        2,3: intros q Hq; assert (q <> p) by (intros ->; contradiction);
             destruct (Hd p q) as (D1 & D2 & D3); simpl; auto;
             destruct (Hd q p) as (D4 & D5 & D6); simpl; auto; split; congruence.
        split.
        -- rewrite nth_error_upd_other by congruence. rewrite nth_error_upd_same by lia. congruence.
        -- rewrite nth_error_upd_same by (rewrite upd_length; lia). congruence.
      * destruct (S q Hq) as (S1 & S2). assert (q <> p) by (intros ->; contradiction).
        destruct (Hd p q) as (D1 & D2 & D3); simpl; auto.
        destruct (Hd q p) as (D4 & D5 & D6); simpl; auto.
        rewrite S1, S2. split; (rewrite nth_error_upd_other by congruence); rewrite nth_error_upd_other by congruence; reflexivity.
    + intros k Hk. rewrite O by (intros q Hq; apply Hk; right; exact Hq).
      destruct (Hk p (or_introl eq_refl)) as (K1 & K2).
      rewrite nth_error_upd_other by congruence. rewrite nth_error_upd_other by congruence. reflexivity.
Qed.

Lemma flip_x_spec v : wf v ->
  exists w, flip_x v = Ok w /\ shows w (nr v) (nc v) (fun x y => px v x (Z.of_nat (nc v) - 1 - y))%Z.
Proof.
  intros W. unfold flip_x.
  destruct (swap_all (fun p => fst p * nc v + snd p) (fun p => fst p * nc v + (nc v - 1 - snd p))
             (grid (nr v) (nc v / 2)) (pix v)) as (d' & E & L & S & O).
  - apply NoDup_list_prod; apply seq_NoDup.
  - intros [x y] Hp. apply in_grid in Hp. cbn [fst snd]. unfold wf in W. rewrite W.
    assert (2 * (nc v / 2) <= nc v) by (apply Nat.mul_div_le; lia).
    repeat split; try (apply pos_lt; lia). lia.
  - intros [x y] [x' y'] Hp Hq Hne. apply in_grid in Hp, Hq. cbn [fst snd].
    assert (2 * (nc v / 2) <= nc v) by (apply Nat.mul_div_le; lia).
    repeat split; intro C; apply pos_inj in C; try lia; apply Hne; f_equal; lia.
  - rewrite (ofold_ext _ (fun d p => x <- oget d (fst p * nc v + snd p) ;; y <- oget d (fst p * nc v + (nc v - 1 - snd p)) ;;
        d <- oset d (fst p * nc v + snd p) y ;; oset d (fst p * nc v + (nc v - 1 - snd p)) x) (fun _ => True)); auto.
    2: { intros s [x y] _ _. reflexivity. }
    rewrite E. cbn [obind]. eexists. split; [reflexivity|].
    apply shows_nat; cbn [nr nc pix]; [reflexivity|reflexivity|unfold wf in *; cbn [nr nc pix]; congruence|].
    intros x y Hx Hy. replace (Z.of_nat (nc v) - 1 - Z.of_nat y)%Z with (Z.of_nat (nc v - 1 - y)) by lia.
    rewrite px_in by lia.
    pose proof (Nat.div_mod (nc v) 2 ltac:(lia)) as DM. pose proof (Nat.mod_upper_bound (nc v) 2 ltac:(lia)) as MB.
    destruct (Nat.lt_ge_cases y (nc v / 2)) as [H1|H1].
    + apply (proj1 (S (x, y) ltac:(apply in_grid; lia))).
    + destruct (Nat.lt_ge_cases (nc v - 1 - y) (nc v / 2)) as [H2|H2].
      * pose proof (proj2 (S (x, nc v - 1 - y) ltac:(apply in_grid; lia))) as S'. cbn [fst snd] in S'.
        replace (nc v - 1 - (nc v - 1 - y)) with y in S' by lia. exact S'.
      * replace (nc v - 1 - y) with y by lia. apply O. intros [x' y'] Hq. apply in_grid in Hq. cbn [fst snd].
        split; intro C; apply pos_inj in C; lia.
Qed.

Lemma flip_y_spec v : wf v ->
  exists w, flip_y v = Ok w /\ shows w (nr v) (nc v) (fun x y => px v (Z.of_nat (nr v) - 1 - x) y)%Z.
Proof.
  intros W. unfold flip_y.
  destruct (swap_all (fun p => fst p * nc v + snd p) (fun p => (nr v - 1 - fst p) * nc v + snd p)
             (grid (nr v / 2) (nc v)) (pix v)) as (d' & E & L & S & O).
  - apply NoDup_list_prod; apply seq_NoDup.
  - intros [x y] Hp. apply in_grid in Hp. cbn [fst snd]. unfold wf in W. rewrite W.
    assert (2 * (nr v / 2) <= nr v) by (apply Nat.mul_div_le; lia).
    repeat split; try (apply pos_lt; lia). intro C; apply pos_inj in C; lia.
  - intros [x y] [x' y'] Hp Hq Hne. apply in_grid in Hp, Hq. cbn [fst snd].
    assert (2 * (nr v / 2) <= nr v) by (apply Nat.mul_div_le; lia).
    repeat split; intro C; apply pos_inj in C; try lia; apply Hne; f_equal; lia.
  - rewrite (ofold_ext _ (fun d p => x <- oget d (fst p * nc v + snd p) ;; y <- oget d ((nr v - 1 - fst p) * nc v + snd p) ;;
        d <- oset d (fst p * nc v + snd p) y ;; oset d ((nr v - 1 - fst p) * nc v + snd p) x) (fun _ => True)); auto.
    2: { intros s [x y] _ _. reflexivity. }
    rewrite E. cbn [obind]. eexists. split; [reflexivity|].
    apply shows_nat; cbn [nr nc pix]; [reflexivity|reflexivity|unfold wf in *; cbn [nr nc pix]; congruence|].
    intros x y Hx Hy. replace (Z.of_nat (nr v) - 1 - Z.of_nat x)%Z with (Z.of_nat (nr v - 1 - x)) by lia.
    rewrite px_in by lia.
    pose proof (Nat.div_mod (nr v) 2 ltac:(lia)) as DM. pose proof (Nat.mod_upper_bound (nr v) 2 ltac:(lia)) as MB.
    destruct (Nat.lt_ge_cases x (nr v / 2)) as [H1|H1].
    + apply (proj1 (S (x, y) ltac:(apply in_grid; lia))).
    + destruct (Nat.lt_ge_cases (nr v - 1 - x) (nr v / 2)) as [H2|H2].
      * pose proof (proj2 (S (nr v - 1 - x, y) ltac:(apply in_grid; lia))) as S'. cbn [fst snd] in S'.
        replace (nr v - 1 - (nr v - 1 - x)) with x in S' by lia. exact S'.
      * replace (nr v - 1 - x) with x by lia. apply O. intros [x' y'] Hq. apply in_grid in Hq. cbn [fst snd].
        split; intro C; apply pos_inj in C; lia.
Qed.

Lemma flip_x_twice v : wf v -> exists w, flip_x v = Ok w /\ flip_x w = Ok v.
Proof.
  intros W. destruct (flip_x_spec v W) as (w & E & S). exists w. split; [exact E|].
  pose proof S as (S1 & S2 & S3 & S4). destruct (flip_x_spec w S3) as (u & E' & S'). rewrite E'. f_equal.
  eapply shows_eq; [|apply shows_self; exact W]. destruct S' as (T1 & T2 & T3 & T4).
  rewrite S1, S2 in *. split; [exact T1|]. split; [exact T2|]. split; [exact T3|].
  intros x y Hx Hy. rewrite T4 by assumption. rewrite S4 by lia. f_equal. lia.
Qed.
Lemma flip_y_twice v : wf v -> exists w, flip_y v = Ok w /\ flip_y w = Ok v.
Proof.
  intros W. destruct (flip_y_spec v W) as (w & E & S). exists w. split; [exact E|].
  pose proof S as (S1 & S2 & S3 & S4). destruct (flip_y_spec w S3) as (u & E' & S'). rewrite E'. f_equal.
  eapply shows_eq; [|apply shows_self; exact W]. destruct S' as (T1 & T2 & T3 & T4).
  rewrite S1, S2 in *. split; [exact T1|]. split; [exact T2|]. split; [exact T3|].
  intros x y Hx Hy. rewrite T4 by assumption. rewrite S4 by lia. f_equal. lia.
Qed.

(* ---- sub-regions ---- *)
Lemma ints_in a b z : In z (ints a b) <-> (a <= z < b)%Z.
Proof.
  unfold ints. rewrite in_map_iff. split.
  - intros (k & <- & Hk). apply in_seq in Hk. lia.
  - intros H. exists (Z.to_nat (z - a)). split; [lia|]. apply in_seq. lia.
Qed.
Lemma ints_nodup a b : NoDup (ints a b).
Proof. unfold ints. apply NoDup_map_inj; [apply seq_NoDup|]. intros; lia. Qed.
Lemma ints_length a b : length (ints a b) = Z.to_nat (b - a).
Proof. unfold ints. rewrite map_length, seq_length. reflexivity. Qed.

Lemma seq_offset s n : seq s n = map (fun k => s + k) (seq 0 n).
Proof.
  induction n as [|n IH]; [reflexivity|]. rewrite !seq_S, map_app, IH. reflexivity.
Qed.
Lemma prod_seq (P Q : nat) (a b : Z) : 0 < Q ->
  list_prod (map (fun k => a + Z.of_nat k)%Z (seq 0 P)) (map (fun k => b + Z.of_nat k)%Z (seq 0 Q)) =
  map (fun i => (a + Z.of_nat i / Z.of_nat Q, b + Z.of_nat i mod Z.of_nat Q)%Z) (seq 0 (P * Q)).
Proof.
  intros HQ. induction P as [|P IH]; [reflexivity|].
  rewrite seq_S, map_app. cbn [map Nat.add].
  assert (LP : forall (l1 l2 : list Z) (l : list Z), list_prod (l1 ++ l2) l = list_prod l1 l ++ list_prod l2 l).
  { clear. induction l1 as [|x l1 IH]; intros l2 l; cbn; [reflexivity|]. rewrite IH, app_assoc. reflexivity. }
  rewrite LP, IH. replace (S P * Q) with (P * Q + Q) by lia. rewrite seq_app, map_app. f_equal.
  cbn [list_prod]. rewrite app_nil_r. rewrite Nat.add_0_l.
  rewrite (seq_offset (P * Q) Q), !map_map. apply map_ext_in. intros k Hk. apply in_seq in Hk.
  replace (Z.of_nat (P * Q + k)) with (Z.of_nat k + Z.of_nat P * Z.of_nat Q)%Z by lia.
  rewrite Z.div_add, Z.mod_add by lia. rewrite Z.div_small, Z.mod_small by lia. f_equal.
Qed.

Lemma wrap64_id x : (0 <= x < two64)%Z -> wrap64 x = x.
Proof. intros H. unfold wrap64. apply Z.mod_small. exact H. Qed.

Lemma signed64_id x : (- two63 <= x < two63)%Z -> signed64 x = Ok x.
Proof.
  intros H. unfold signed64. destruct (Z.leb_spec (- two63) x), (Z.ltb_spec x two63); try lia. reflexivity.
Qed.

(* the index lists: the flat positions of the overlap in the image and in the region *)
Lemma subregion_ids_spec n m r0 r1 r2 r3 :
  (- two63 <= r2 - r0 < two63 - 1)%Z -> (- two63 <= r3 - r1 < two63 - 1)%Z ->
  (Z.of_nat n * Z.of_nat m < two64)%Z -> ((r2 - r0 + 1) * (r3 - r1 + 1) < two64 \/ r2 < r0 \/ r3 < r1)%Z ->
  subregion_ids n m [r0; r1; r2; r3] =
  Ok (map (fun p => fst p * Z.of_nat m + snd p)%Z (overlap n m r0 r1 r2 r3),
      map (fun p => (fst p - r0) * (r3 - r1 + 1) + (snd p - r1))%Z (overlap n m r0 r1 r2 r3)).
Proof.
  intros B1 B2 F1 F2. unfold subregion_ids. rewrite !signed64_id by lia. cbn [obind].
  rewrite !signed64_id by lia. cbn [obind].
  assert (LP0 : forall (l : list Z), list_prod l (@nil Z) = []) by (induction l; cbn; auto).
  match goal with |- (if ?c then _ else _) = _ => destruct c eqn:EC end.
  - assert (Z0 : forall a b, (b <= a)%Z -> ints a b = []).
    { intros a b H. unfold ints. replace (Z.to_nat (b - a)) with 0 by lia. reflexivity. }
    assert (overlap n m r0 r1 r2 r3 = []) as ->; [|reflexivity].
    unfold overlap.
    assert (C : (Z.min (Z.of_nat n) (r2 + 1) <= Z.max 0 r0)%Z \/ (Z.min (Z.of_nat m) (r3 + 1) <= Z.max 0 r1)%Z) by lia.
    destruct C as [C|C]; rewrite (Z0 _ _ C); [reflexivity | apply LP0].
  - assert (FF : ((r2 - r0 + 1) * (r3 - r1 + 1) < two64)%Z) by (destruct F2 as [?|[?|?]]; lia).
    assert (CC : (r0 < Z.of_nat n /\ 0 <= r2 /\ r0 <= r2 /\ r1 < Z.of_nat m /\ 0 <= r3 /\ r1 <= r3)%Z) by lia.
    clear F2 EC. destruct CC as (C1 & C2 & C3 & C4 & C5 & C6).
    replace (if (r0 <? 0)%Z then (0, 0 - r0)%Z else (r0, 0%Z)) with (Z.max 0 r0, Z.max 0 r0 - r0)%Z
      by (destruct (Z.ltb_spec r0 0); f_equal; lia).
    replace (if (r1 <? 0)%Z then (0, 0 - r1)%Z else (r1, 0%Z)) with (Z.max 0 r1, Z.max 0 r1 - r1)%Z
      by (destruct (Z.ltb_spec r1 0); f_equal; lia).
    set (sx := (if (Z.of_nat n <=? r2)%Z then (_, _) else _)).
    replace sx with (Z.min (Z.of_nat n - 1) r2, Z.min (Z.of_nat n - 1) r2 - r0)%Z
      by (unfold sx; destruct (Z.leb_spec (Z.of_nat n) r2); f_equal; lia).
    set (sy := (if (Z.of_nat m <=? r3)%Z then (_, _) else _)).
    replace sy with (Z.min (Z.of_nat m - 1) r3, Z.min (Z.of_nat m - 1) r3 - r1)%Z
      by (unfold sy; destruct (Z.leb_spec (Z.of_nat m) r3); f_equal; lia).
    clear sx sy.
    unfold overlap, ints.
    replace (Z.min (Z.of_nat n) (r2 + 1)) with (Z.min (Z.of_nat n - 1) r2 + 1)%Z by lia.
    replace (Z.min (Z.of_nat m) (r3 + 1)) with (Z.min (Z.of_nat m - 1) r3 + 1)%Z by lia.
    set (v0 := Z.max 0 r0) in *. set (v1 := Z.max 0 r1) in *.
    set (v2 := Z.min (Z.of_nat n - 1) r2) in *. set (v3 := Z.min (Z.of_nat m - 1) r3) in *.
    destruct (Nat.eq_dec (n * m) 0) as [Z0|Z0].
    { assert (NM : (v2 - v0 + 1 = 0 \/ v3 - v1 + 1 = 0)%Z).
      { apply Nat.eq_mul_0 in Z0. unfold v0, v1, v2, v3. destruct Z0; subst; [left|right]; lia. }
      replace ((v2 - v0 + 1) * (v3 - v1 + 1))%Z with 0%Z by (destruct NM as [->| ->]; lia).
      change (Z.to_nat (wrap64 0)) with 0. cbn [seq map].
      destruct NM as [NM|NM].
      - replace (v2 + 1 - v0)%Z with 0%Z by lia. reflexivity.
      - replace (v3 + 1 - v1)%Z with 0%Z by lia. cbn [Z.to_nat seq map]. rewrite LP0. reflexivity. }
    assert (PNM : 0 < n /\ 0 < m) by (clear -Z0; destruct n, m; lia).
    assert (V02 : (0 <= v0 <= v2 /\ v2 < Z.of_nat n /\ r0 <= v0 /\ v2 <= r2)%Z) by (unfold v0, v2; lia).
    assert (V13 : (0 <= v1 <= v3 /\ v3 < Z.of_nat m /\ r1 <= v1 /\ v3 <= r3)%Z) by (unfold v1, v3; lia).
    clearbody v0 v1 v2 v3.
    rewrite (prod_seq (Z.to_nat (v2 + 1 - v0)) (Z.to_nat (v3 + 1 - v1))) by lia.
    replace (Z.of_nat (Z.to_nat (v3 + 1 - v1))) with (v3 - v1 + 1)%Z by lia.
    assert (NN : Z.to_nat (wrap64 ((v2 - v0 + 1) * (v3 - v1 + 1))) = Z.to_nat (v2 + 1 - v0) * Z.to_nat (v3 + 1 - v1)).
    { rewrite wrap64_id.
      - rewrite Z2Nat.inj_mul by lia. f_equal; f_equal; lia.
      - split; [apply Z.mul_nonneg_nonneg; lia|].
        pose proof (Z.mul_le_mono_nonneg (v2 - v0 + 1) (Z.of_nat n) (v3 - v1 + 1) (Z.of_nat m)). lia. }
    rewrite NN. rewrite !map_map. f_equal.
    assert (DD : forall i, i < Z.to_nat (v2 + 1 - v0) * Z.to_nat (v3 + 1 - v1) ->
       (0 <= Z.of_nat i / (v3 - v1 + 1) < v2 - v0 + 1 /\ 0 <= Z.of_nat i mod (v3 - v1 + 1) < v3 - v1 + 1)%Z).
    { intros i Hi. split; [|apply Z.mod_pos_bound; lia]. split; [apply Z.div_pos; lia|].
      apply Z.div_lt_upper_bound; [lia|]. apply Nat2Z.inj_lt in Hi. rewrite Nat2Z.inj_mul, !Z2Nat.id in Hi by lia.
      replace (v3 - v1 + 1)%Z with (v3 + 1 - v1)%Z by lia. replace (v2 - v0 + 1)%Z with (v2 + 1 - v0)%Z by lia.
      rewrite Z.mul_comm. exact Hi. }
    f_equal; apply map_ext_in; intros i Hi; apply in_seq in Hi; cbn [fst snd];
      destruct (DD i ltac:(lia)) as (D1 & D2);
      set (q := (Z.of_nat i / (v3 - v1 + 1))%Z) in *; set (e := (Z.of_nat i mod (v3 - v1 + 1))%Z) in *;
      clearbody q e.
    + pose proof (zpos_bound (Z.of_nat n) (Z.of_nat m) (q + v0) (e + v1)). rewrite wrap64_id by lia. lia.
    + pose proof (zpos_bound (r2 - r0 + 1) (r3 - r1 + 1) (q + (v0 - r0)) (e + (v1 - r1))). rewrite wrap64_id; [|lia].
      replace (v0 + q - r0)%Z with (q + (v0 - r0))%Z by lia. lia.
Qed.

Lemma overlap_in n m r0 r1 r2 r3 x y :
  In (x, y) (overlap n m r0 r1 r2 r3) <->
  (0 <= x < Z.of_nat n /\ r0 <= x <= r2 /\ 0 <= y < Z.of_nat m /\ r1 <= y <= r3)%Z.
Proof. unfold overlap. rewrite in_prod_iff, !ints_in. lia. Qed.
Lemma overlap_nodup n m r0 r1 r2 r3 : NoDup (overlap n m r0 r1 r2 r3).
Proof. apply NoDup_list_prod; apply ints_nodup. Qed.

Lemma combine_map {B C D} (f : B -> C) (g : B -> D) l : combine (map f l) (map g l) = map (fun x => (f x, g x)) l.
Proof. induction l as [|x l IH]; cbn [map combine]; [reflexivity|]. rewrite IH. reflexivity. Qed.
Lemma ofold_map {B C S} (f : B -> C) (g : S -> C -> outcome S) l : forall s,
  ofold g (map f l) s = ofold (fun s x => g s (f x)) l s.
Proof. induction l as [|x l IH]; intros s; cbn [map ofold]; [reflexivity|]. destruct (g s (f x)); cbn [obind]; auto. Qed.

(* copying the overlap into an N by M image whose pixel (0,0) is at (r0,r1) *)
Lemma copy_overlap v def r0 r1 N M : wf v -> 
  let r2 := (r0 + Z.of_nat N - 1)%Z in let r3 := (r1 + Z.of_nat M - 1)%Z in
  exists d, copy_ids (pix v) (map (fun p => fst p * Z.of_nat (nc v) + snd p)%Z (overlap (nr v) (nc v) r0 r1 r2 r3))
      (map (fun p => (fst p - r0) * Z.of_nat M + (snd p - r1))%Z (overlap (nr v) (nc v) r0 r1 r2 r3)) (repeat def (N * M)) = Ok d /\
    shows (Img N M d) N M (fun x y => px_or def v (x + r0) (y + r1))%Z.
Proof.
  intros W r2 r3. unfold copy_ids. rewrite combine_map, ofold_map.
  set (ov := overlap _ _ _ _ _ _).
  destruct (write_all (fun p => Z.to_nat ((fst p - r0) * Z.of_nat M + (snd p - r1)))
      (fun p => nth (Z.to_nat (fst p * Z.of_nat (nc v) + snd p)) (pix v) def) ov (repeat def (N * M))) as (d & E & L & O & S).
  { intros [x y] H. apply overlap_in in H. cbn [fst snd]. rewrite repeat_length. unfold r2, r3 in H.
    pose proof (zpos_bound (Z.of_nat N) (Z.of_nat M) (x - r0) (y - r1)). lia. }
  exists d. split.
  { rewrite <- E. apply (ofold_ext _ _ (fun _ => True)); auto. intros s [x y] _ H. apply overlap_in in H.
    cbn [fst snd]. unfold oget.
    destruct (nth_error (pix v) (Z.to_nat (x * Z.of_nat (nc v) + y))) as [a|] eqn:Ea.
    - cbn [obind]. f_equal. symmetry. apply nth_error_nth. exact Ea.
    - apply nth_error_None in Ea. unfold wf in W. rewrite W in Ea.
      pose proof (zpos_bound (Z.of_nat (nr v)) (Z.of_nat (nc v)) x y). lia. }
  rewrite repeat_length in L.
  apply shows_nat; cbn [nr nc pix]; [reflexivity|reflexivity|exact L|].
  intros x y Hx Hy. unfold px_or.
  assert (EQP : forall x' y', In (x', y') ov ->
     Z.to_nat ((x' - r0) * Z.of_nat M + (y' - r1)) = x * M + y -> (x' = Z.of_nat x + r0 /\ y' = Z.of_nat y + r1)%Z).
  { intros x' y' H Eq. apply overlap_in in H. unfold r2, r3 in H.
    assert (Eq' : Z.to_nat (x' - r0) * M + Z.to_nat (y' - r1) = x * M + y).
    { rewrite <- Eq. rewrite Z2Nat.inj_add by (try apply Z.mul_nonneg_nonneg; lia).
      rewrite Z2Nat.inj_mul by lia. rewrite Nat2Z.id. reflexivity. }
    apply pos_inj in Eq'; lia. }
  destruct (In_dec (prod_eq_dec' ) (Z.of_nat x + r0, Z.of_nat y + r1)%Z ov) as [H|H].
  - pose proof (S _ H) as S'. cbn [fst snd] in S'.
    replace (Z.to_nat ((Z.of_nat x + r0 - r0) * Z.of_nat M + (Z.of_nat y + r1 - r1))) with (x * M + y) in S'.
    2: { replace (Z.of_nat x + r0 - r0)%Z with (Z.of_nat x) by lia. replace (Z.of_nat y + r1 - r1)%Z with (Z.of_nat y) by lia.
         rewrite <- Nat2Z.inj_mul, <- Nat2Z.inj_add, Nat2Z.id. reflexivity. }
    rewrite S'.
    + apply overlap_in in H. rewrite px_in_Z by lia.
      replace (Z.to_nat ((Z.of_nat x + r0) * Z.of_nat (nc v) + (Z.of_nat y + r1)))
        with (Z.to_nat (Z.of_nat x + r0) * nc v + Z.to_nat (Z.of_nat y + r1)).
      2: { symmetry. apply zpos_nat; lia. }
      destruct (total_px v W (Z.to_nat (Z.of_nat x + r0)) (Z.to_nat (Z.of_nat y + r1))) as (a & Ea); [lia|lia|].
      rewrite Ea. f_equal. apply nth_error_nth. exact Ea.
    + intros [x' y'] Hq Eq. cbn [fst snd] in *. destruct (EQP x' y' Hq Eq) as (-> & ->). reflexivity.
  - rewrite px_out.
    + rewrite O. { apply nth_error_repeat. apply pos_lt; assumption. }
      intros [x' y'] Hq Eq. cbn [fst snd] in Eq. destruct (EQP x' y' Hq Eq) as (-> & ->). contradiction.
    + intro C. apply H. apply overlap_in. unfold r2, r3. lia.
Qed.

Lemma subregion_spec v r0 r1 r2 r3 def : wf v -> (Z.of_nat (nr v) * Z.of_nat (nc v) < two64)%Z ->
  (r0 <= r2 + 1)%Z -> (r1 <= r3 + 1)%Z -> (r2 - r0 < two63 - 1)%Z -> (r3 - r1 < two63 - 1)%Z ->
  ((r2 - r0 + 1) * (r3 - r1 + 1) <= 1152921504606846975)%Z ->
  exists s, subregion v [r0; r1; r2; r3] def = Ok s /\
    shows s (Z.to_nat (r2 - r0 + 1)) (Z.to_nat (r3 - r1 + 1)) (fun x y => px_or def v (x + r0) (y + r1))%Z.
Proof.
  intros W F H1 H2 B1 B2 B3. unfold subregion.
  assert (T63 : two63 = 9223372036854775808%Z) by reflexivity.
  assert (T64 : two64 = 18446744073709551616%Z) by reflexivity.
  rewrite subregion_ids_spec by lia. cbn [obind].
  rewrite !wrap64_id by lia.
  rewrite filled_ok.
  2: { unfold fits. rewrite !Z2Nat.id by lia. lia. }
  cbn [obind nr nc pix].
  destruct (copy_overlap v def r0 r1 (Z.to_nat (r2 - r0 + 1)) (Z.to_nat (r3 - r1 + 1)) W) as (d & E & S).
  rewrite !Z2Nat.id in E by lia.
  replace (r0 + (r2 - r0 + 1) - 1)%Z with r2 in E by lia. replace (r1 + (r3 - r1 + 1) - 1)%Z with r3 in E by lia.
  rewrite E. cbn [obind]. eexists. split; [reflexivity|exact S].
Qed.

Lemma recenter_dims_spec v cy cx (d0 d1 : nat) def : wf v -> (Z.of_nat (nr v) * Z.of_nat (nc v) < two64)%Z ->
  (Z.of_nat d0 < two63)%Z -> (Z.of_nat d1 < two63)%Z -> fits d0 d1 ->
  exists s, recenter_dims v cy cx d0 d1 def = Ok s /\
    shows s d0 d1 (fun x y => px_or def v (cy + x - Z.of_nat d0 / 2) (cx + y - Z.of_nat d1 / 2))%Z.
Proof.
  intros W F H1 H2 F'. unfold recenter_dims. rewrite filled_ok by exact F'. cbn [obind].
  set (ty0 := (cy - Z.of_nat d0 / 2)%Z). set (tx0 := (cx - Z.of_nat d1 / 2)%Z).
  assert (T63 : two63 = 9223372036854775808%Z) by reflexivity.
  destruct F' as (F1 & F2 & F3). unfold two64 in *.
  rewrite subregion_ids_spec; [|lia|lia|unfold two64; lia|].
  2: { left. replace (ty0 + Z.of_nat d0 - 1 - ty0 + 1)%Z with (Z.of_nat d0) by lia.
       replace (tx0 + Z.of_nat d1 - 1 - tx0 + 1)%Z with (Z.of_nat d1) by lia. unfold two64. lia. }
  cbn [obind pix].
  replace (tx0 + Z.of_nat d1 - 1 - tx0 + 1)%Z with (Z.of_nat d1) by lia.
  destruct (copy_overlap v def ty0 tx0 d0 d1 W) as (d & E & S). rewrite E. cbn [obind].
  eexists. split; [reflexivity|]. destruct S as (S1 & S2 & S3 & S4). split; [exact S1|]. split; [exact S2|].
  split; [exact S3|]. intros x y Hx Hy. rewrite S4 by assumption. f_equal; unfold ty0, tx0; lia.
Qed.

(* ---- boxcar ---- *)
Lemma below_ok x n h : h <= n -> (N.of_nat n < two64N)%N -> below x n h = (x <? n - h).
Proof.
  intros H B. unfold below.
  replace (two64N + N.of_nat n - N.of_nat h)%N with (N.of_nat (n - h) + 1 * two64N)%N by lia.
  rewrite N.mod_add by (unfold two64N; lia). rewrite N.mod_small by lia.
  destruct (N.ltb_spec (N.of_nat x) (N.of_nat (n - h))), (Nat.ltb_spec x (n - h)); try lia; reflexivity.
Qed.
Lemma below_over x n h : n < h -> (N.of_nat h < two64N)%N -> x < n -> below x n h = true.
Proof.
  intros H B Hx. unfold below. rewrite N.mod_small by lia. apply N.ltb_lt. lia.
Qed.

Lemma window_ok v h x y : wf v -> h <= nr v -> h <= nc v -> (Z.of_nat (nr v) < two64)%Z -> (Z.of_nat (nc v) < two64)%Z ->
  x < nr v -> y < nc v ->
  exists l, window v h x y = Ok l /\
    map Some l = map (fun p => px v (fst p) (snd p))
      (overlap (nr v) (nc v) (Z.of_nat x - Z.of_nat h) (Z.of_nat y - Z.of_nat h) (Z.of_nat x + Z.of_nat h) (Z.of_nat y + Z.of_nat h)).
Proof.
  intros W H1 H2 B1 B2 Hx Hy. unfold window. rewrite !below_ok by (unfold two64, two64N in *; lia).
  set (x0 := if h <=? x then x - h else 0). set (x1 := if x <? nr v - h then x + h else nr v - 1).
  set (y0 := if h <=? y then y - h else 0). set (y1 := if y <? nc v - h then y + h else nc v - 1).
  assert (EO : overlap (nr v) (nc v) (Z.of_nat x - Z.of_nat h) (Z.of_nat y - Z.of_nat h) (Z.of_nat x + Z.of_nat h) (Z.of_nat y + Z.of_nat h) =
     map (fun p => (Z.of_nat (fst p), Z.of_nat (snd p))) (list_prod (seq x0 (x1 + 1 - x0)) (seq y0 (y1 + 1 - y0)))).
  { unfold overlap.
    assert (IS : forall a n, ints (Z.of_nat a) (Z.of_nat (a + n)) = map Z.of_nat (seq a n)).
    { intros a n. unfold ints. rewrite (seq_offset a n), map_map.
      replace (Z.to_nat (Z.of_nat (a + n) - Z.of_nat a)) with n by lia. apply map_ext. intros k. lia. }
    replace (Z.max 0 (Z.of_nat x - Z.of_nat h)) with (Z.of_nat x0)
      by (unfold x0; destruct (Nat.leb_spec h x); lia).
    replace (Z.max 0 (Z.of_nat y - Z.of_nat h)) with (Z.of_nat y0)
      by (unfold y0; destruct (Nat.leb_spec h y); lia).
    replace (Z.min (Z.of_nat (nr v)) (Z.of_nat x + Z.of_nat h + 1)) with (Z.of_nat (x0 + (x1 + 1 - x0)))
      by (unfold x0, x1; destruct (Nat.leb_spec h x), (Nat.ltb_spec x (nr v - h)); lia).
    replace (Z.min (Z.of_nat (nc v)) (Z.of_nat y + Z.of_nat h + 1)) with (Z.of_nat (y0 + (y1 + 1 - y0)))
      by (unfold y0, y1; destruct (Nat.leb_spec h y), (Nat.ltb_spec y (nc v - h)); lia).
    rewrite !IS. generalize (seq x0 (x1 + 1 - x0)) (seq y0 (y1 + 1 - y0)). clear. intros l l'.
    induction l as [|a l IH]; cbn [list_prod map]; [reflexivity|]. rewrite map_app, IH, !map_map. reflexivity. }
  rewrite EO. clear EO. rewrite map_map. cbn [fst snd].
  assert (IN : forall p, In p (list_prod (seq x0 (x1 + 1 - x0)) (seq y0 (y1 + 1 - y0))) -> fst p < nr v /\ snd p < nc v).
  { intros [a b] Hp. apply in_prod_iff in Hp. rewrite !in_seq in Hp. cbn [fst snd]. unfold x0, x1, y0, y1 in Hp.
    destruct (Nat.leb_spec h x), (Nat.ltb_spec x (nr v - h)), (Nat.leb_spec h y), (Nat.ltb_spec y (nc v - h)); lia. }
  generalize dependent (list_prod (seq x0 (x1 + 1 - x0)) (seq y0 (y1 + 1 - y0))). clear -W. intros ps IN.
  induction ps as [|[a b] ps IH]; [exists []; split; reflexivity|]. cbn [omapl map fst snd].
  destruct IH as (l & E & M). { intros p Hp. apply IN. right; exact Hp. }
  destruct (IN (a, b) (or_introl eq_refl)) as (I1 & I2). cbn [fst snd] in *.
  destruct (pget_some v a b W I1 I2) as (z & Ez & Pz). rewrite Ez. cbn [obind]. rewrite E. cbn [obind].
  exists (z :: l). split; [reflexivity|]. cbn [map]. rewrite M, Pz. reflexivity.
Qed.

Lemma nth_error_grid n m x y : x < n -> y < m -> nth_error (grid n m) (x * m + y) = Some (x, y).
Proof.
  unfold grid. intros Hx Hy.
  assert (G : forall (k s : nat), x < k -> nth_error (list_prod (seq s k) (seq 0 m)) (x * m + y) = Some (s + x, y)).
  { clear n Hx. induction x as [|x IH]; intros [|k] s Hk; try lia; cbn [seq list_prod].
    - rewrite nth_error_app1 by (rewrite map_length, seq_length; lia). rewrite Nat.add_0_r. cbn [Nat.mul Nat.add].
      apply map_nth_error. rewrite nth_error_seq. destruct (Nat.ltb_spec y m); [reflexivity|lia].
    - rewrite nth_error_app2 by (rewrite map_length, seq_length; cbn; lia). rewrite map_length, seq_length.
      replace (S x * m + y - m) with (x * m + y) by (cbn; lia). rewrite IH by lia. f_equal. f_equal. lia. }
  apply (G n 0 Hx).
Qed.
Lemma grid_length n m : length (grid n m) = n * m.
Proof. unfold grid. rewrite prod_length, !seq_length. reflexivity. Qed.

Lemma boxcar_spec {B} v h (func : list A -> B) : wf v -> h <= nr v -> h <= nc v ->
  (Z.of_nat (nr v) < two64)%Z -> (Z.of_nat (nc v) < two64)%Z ->
  exists w : img B, boxcar v h func = Ok w /\ nr w = nr v /\ nc w = nc v /\ wf w /\
    forall x y, (0 <= x < Z.of_nat (nr v))%Z -> (0 <= y < Z.of_nat (nc v))%Z ->
    exists l, px w x y = Some (func l) /\
      map Some l = map (fun p => px v (fst p) (snd p))
        (overlap (nr v) (nc v) (x - Z.of_nat h) (y - Z.of_nat h) (x + Z.of_nat h) (y + Z.of_nat h)).
Proof.
  intros W H1 H2 B1 B2. unfold boxcar.
  destruct (omapl_ok _ _ (fun '(x, y) => omap func (window v h x y))
     (fun p => match window v h (fst p) (snd p) with Ok l => Some (func l) | _ => None end) (grid (nr v) (nc v)))
    as (r & E & L & N).
  { intros [x y] Hp. apply in_grid in Hp. destruct (window_ok v h x y W H1 H2 B1 B2) as (l & El & _); [lia|lia|].
    exists (func l). cbn [fst snd]. rewrite El. split; reflexivity. }
  rewrite E. cbn [obind]. rewrite grid_length in L. eexists. split; [reflexivity|]. cbn [nr nc].
  split; [reflexivity|]. split; [reflexivity|]. split; [exact L|].
  intros x y Hx Hy. rewrite px_in_Z by (cbn [nr nc]; assumption). cbn [nc pix].
  rewrite (N _ (Z.to_nat x, Z.to_nat y)) by (apply nth_error_grid; lia). cbn [fst snd].
  destruct (window_ok v h (Z.to_nat x) (Z.to_nat y) W H1 H2 B1 B2) as (l & El & Ml); [lia|lia|].
  rewrite El. exists l. split; [reflexivity|]. rewrite !Z2Nat.id in Ml by lia. exact Ml.
Qed.

Lemma Forall2_in_l {B C} (R : B -> C -> Prop) l r a : Forall2 R l r -> In a l -> exists b, R a b.
Proof. induction 1 as [|x y l r H _ IH]; intros []; [subst; eauto|auto]. Qed.
Lemma omapl_UB {B C} (f : B -> outcome C) l a : In a l -> (forall b, In b l -> (exists c, f b = Ok c) \/ f b = UB) ->
  f a = UB -> omapl f l = UB.
Proof.
  induction l as [|b l IH]; intros Hi Hc Ha; [contradiction|]. cbn [omapl].
  destruct (Hc b (or_introl eq_refl)) as [(c & Ec)|Ec].
  - rewrite Ec. cbn [obind]. destruct Hi as [->|Hi]; [congruence|].
    rewrite IH; [reflexivity|exact Hi| |exact Ha]. intros d Hd. apply Hc. right; exact Hd.
  - rewrite Ec. reflexivity.
Qed.
Lemma window_total v h x y : (exists c, window v h x y = Ok c) \/ window v h x y = UB.
Proof.
  unfold window. match goal with |- context [omapl ?f ?l] => generalize l end. clear. intros ps.
  induction ps as [|[a b] ps IH]; cbn [omapl]; [left; eexists; reflexivity|].
  unfold pget at 1, oget at 1. unfold pget, oget. destruct (nth_error (pix v) (a * nc v + b)); cbn [obind]; [|right; reflexivity].
  destruct IH as [(c & E)|E]; unfold pget, oget in E; rewrite E; cbn [obind]; [left; eexists; reflexivity|right; reflexivity].
Qed.

(* a window larger than the image is read outside the image *)
Lemma boxcar_UB {B} v h (func : list A -> B) : wf v -> 0 < nr v -> 0 < nc v -> (Z.of_nat h < two64)%Z ->
  nr v < h \/ nc v < h -> boxcar v h func = UB.
Proof.
  intros W P1 P2 B1 H. unfold boxcar.
  rewrite (omapl_UB _ _ (nr v - 1, nc v - 1)); [reflexivity| | |].
  - apply in_grid. lia.
  - intros [x y] _. destruct (window_total v h x y) as [(c & E)|E]; rewrite E; [left; eexists; reflexivity|right; reflexivity].
  - destruct (window_total v h (nr v - 1) (nc v - 1)) as [(c & E)|E]; [|rewrite E; reflexivity]. exfalso.
    unfold window in E.
    set (x0 := if h <=? nr v - 1 then _ else 0) in E. set (x1 := if below _ (nr v) h then _ else _) in E.
    set (y0 := if h <=? nc v - 1 then _ else 0) in E. set (y1 := if below _ (nc v) h then _ else _) in E.
    assert (X : x0 <= nr v - 1 <= x1).
    { unfold x0, x1. destruct (Nat.leb_spec h (nr v - 1)), (below (nr v - 1) (nr v) h); lia. }
    assert (Y : y0 <= nc v - 1 <= y1).
    { unfold y0, y1. destruct (Nat.leb_spec h (nc v - 1)), (below (nc v - 1) (nc v) h); lia. }
    assert (XY : nr v <= x1 \/ nc v <= y1).
    { destruct H as [H|H]; [left|right].
      - unfold x1. rewrite below_over by (unfold two64, two64N in *; lia). lia.
      - unfold y1. rewrite below_over by (unfold two64, two64N in *; lia). lia. }
    pose proof (omapl_Ok_inv _ _ _ _ _ E) as I.
    assert (BAD : forall a b, x0 <= a <= x1 -> y0 <= b <= y1 -> length (pix v) <= a * nc v + b -> False).
    { intros a b Ha Hb Hl. destruct (Forall2_in_l _ _ _ (a, b) I) as (z & Ez).
      - apply in_prod_iff. rewrite !in_seq. lia.
      - unfold pget, oget in Ez. rewrite (proj2 (nth_error_None _ _) Hl) in Ez. discriminate. }
    unfold wf in W. destruct XY as [XY|XY].
    + apply (BAD (nr v) (nc v - 1)); try lia.
    + apply (BAD (nr v - 1) (nc v)); try lia. rewrite W. nia.
Qed.
End I.
