(* Lemmas on image operations, part 1: padding, regions, shifts, flips. *)
From Coq Require Import NArith ZifyBool ZifyNat.
From Verif Require Import Base IndexModel IndexProofs VecModel VecProofs VecProofs2 ImageModel ImageSpec.

Lemma in_grid n m x y : In (x, y) (grid n m) <-> x < n /\ y < m.
Proof. unfold grid. rewrite in_prod_iff, !in_seq. lia. Qed.

Lemma pos_lt n m x y : x < n -> y < m -> x * m + y < n * m.
Proof. intros H1 H2. nia. Qed.
Lemma pos_inj m x y x' y' : y < m -> y' < m -> x * m + y = x' * m + y' -> x = x' /\ y = y'.
Proof.
  intros H1 H2 H. assert (x = x') by nia. subst x'. split; [reflexivity | lia].
Qed.
Lemma pos_inv n m k : k < n * m -> exists x y, x < n /\ y < m /\ k = x * m + y.
Proof.
  intros H. assert (m <> 0) by (intros ->; rewrite Nat.mul_0_r in H; lia).
  exists (k / m), (k mod m). split; [apply Nat.div_lt_upper_bound; lia|].
  split; [apply Nat.mod_upper_bound; lia|]. rewrite (Nat.div_mod k m) at 1 by assumption. lia.
Qed.

(* a loop of writes *)
Lemma write_all {A P} (pos : P -> nat) (val : P -> A) : forall ps (d : list A),
  (forall p, In p ps -> pos p < length d) ->
  exists d', ofold (fun d p => oset d (pos p) (val p)) ps d = Ok d' /\ length d' = length d /\
    (forall k, (forall p, In p ps -> pos p <> k) -> nth_error d' k = nth_error d k) /\
    (forall p, In p ps -> (forall q, In q ps -> pos q = pos p -> val q = val p) ->
               nth_error d' (pos p) = Some (val p)).
Proof.
  induction ps as [|p ps IH]; intros d H.
  - exists d. cbn [ofold]. split; [reflexivity|]. split; [reflexivity|]. split; [auto|]. intros p [].
  - cbn [ofold]. unfold oset at 1. pose proof (H p (or_introl eq_refl)) as Hp.
    destruct (Nat.ltb_spec (pos p) (length d)); [|lia]. cbn [obind].
    destruct (IH (upd d (pos p) (val p))) as (d' & E & L & O & S).
    { intros q Hq. rewrite upd_length. apply H. right; exact Hq. }
    exists d'. split; [exact E|]. split; [rewrite L; apply upd_length|]. split.
    + intros k Hk. rewrite O by (intros q Hq; apply Hk; right; exact Hq).
      apply nth_error_upd_other. intro C. apply (Hk p); [left; reflexivity | congruence].
    + intros q Hq Hu.
      assert (D : (exists q', In q' ps /\ pos q' = pos q) \/ (forall q', In q' ps -> pos q' <> pos q)).
      { clear -ps. induction ps as [|a ps IH]; [right; intros ? []|].
        destruct IH as [(q' & H1 & H2)|IH]; [left; exists q'; simpl; auto|].
        destruct (Nat.eq_dec (pos a) (pos q)) as [E|E]; [left; exists a; simpl; auto|].
        right. intros q' [<-|H]; auto. }
      destruct D as [(q' & H1 & H2)|D].
      * rewrite <- H2. rewrite S; [rewrite (Hu q'); simpl; auto|exact H1|].
        intros r Hr Er. rewrite (Hu r), (Hu q'); simpl; auto. congruence.
      * destruct Hq as [<-|Hq]; [|exfalso; apply (D q); auto].
        rewrite O by exact D. apply nth_error_upd_same. lia.
Qed.

Lemma ofold_ext {A S} (f g : S -> A -> outcome S) (I : S -> Prop) : forall l s,
  I s -> (forall s x, I s -> In x l -> f s x = g s x) ->
  (forall s x s', I s -> In x l -> g s x = Ok s' -> I s') ->
  ofold f l s = ofold g l s.
Proof.
  induction l as [|x l IH]; intros s Hs H Hi; [reflexivity|]. cbn [ofold].
  rewrite H by (simpl; auto). destruct (g s x) eqn:E; try reflexivity. cbn [obind].
  apply IH.
  - eapply Hi; [exact Hs| |exact E]. left; reflexivity.
  - intros s0 y I0 Hy. apply H; [exact I0 | right; exact Hy].
  - intros s0 y s1 I0 Hy. apply Hi; [exact I0 | right; exact Hy].
Qed.

Lemma filled_ok {A} (def : A) n m : fits n m -> filled def n m = Ok (Img n m (repeat def (n * m))).
Proof.
  intros (F1 & F2 & F3). unfold filled, data_resize.
  assert (L : (N.of_nat (n * m) <= max_elems)%N) by (unfold max_elems; lia).
  rewrite nwrap_small by (apply max_lt_two64; exact L).
  destruct (N.leb_spec (N.of_nat (n * m)) max_elems); [|lia]. cbn [obind].
  rewrite firstn_nil, Nat.sub_0_r. reflexivity.
Qed.

Lemma px_in {A} (v : img A) (x y : nat) : x < nr v -> y < nc v ->
  px v (Z.of_nat x) (Z.of_nat y) = nth_error (pix v) (x * nc v + y).
Proof.
  intros H1 H2. unfold px.
  destruct (Z.leb_spec 0 (Z.of_nat x)), (Z.ltb_spec (Z.of_nat x) (Z.of_nat (nr v))),
    (Z.leb_spec 0 (Z.of_nat y)), (Z.ltb_spec (Z.of_nat y) (Z.of_nat (nc v))); try lia.
  cbn [andb]. rewrite !Nat2Z.id. reflexivity.
Qed.
Lemma px_in_Z {A} (v : img A) (x y : Z) : (0 <= x < Z.of_nat (nr v))%Z -> (0 <= y < Z.of_nat (nc v))%Z ->
  px v x y = nth_error (pix v) (Z.to_nat x * nc v + Z.to_nat y).
Proof.
  intros H1 H2. rewrite <- px_in by lia. rewrite !Z2Nat.id by lia. reflexivity.
Qed.
Lemma px_out {A} (v : img A) (x y : Z) :
  ~ ((0 <= x < Z.of_nat (nr v))%Z /\ (0 <= y < Z.of_nat (nc v))%Z) -> px v x y = None.
Proof.
  intros H. unfold px.
  destruct (Z.leb_spec 0 x), (Z.ltb_spec x (Z.of_nat (nr v))), (Z.leb_spec 0 y),
    (Z.ltb_spec y (Z.of_nat (nc v))); cbn [andb]; try reflexivity. lia.
Qed.
Lemma px_some {A} (v : img A) (x y : Z) : wf v ->
  (0 <= x < Z.of_nat (nr v))%Z -> (0 <= y < Z.of_nat (nc v))%Z -> exists a, px v x y = Some a.
Proof.
  intros W H1 H2. rewrite px_in_Z by assumption.
  destruct (nth_error (pix v) (Z.to_nat x * nc v + Z.to_nat y)) as [a|] eqn:E; [exists a; reflexivity|].
  apply nth_error_None in E. unfold wf in W. pose proof (pos_lt (nr v) (nc v) (Z.to_nat x) (Z.to_nat y)). lia.
Qed.
Lemma pget_some {A} (v : img A) x y : wf v -> x < nr v -> y < nc v ->
  exists a, pget v x y = Ok a /\ px v (Z.of_nat x) (Z.of_nat y) = Some a.
Proof.
  intros W H1 H2. destruct (px_some v (Z.of_nat x) (Z.of_nat y) W) as (a & E); [lia|lia|].
  exists a. split; [|exact E]. rewrite px_in in E by assumption. unfold pget. apply oget_Ok. exact E.
Qed.

(* a natural-number view of shows *)
Lemma shows_nat {A} (v : img A) n m f :
  nr v = n -> nc v = m -> wf v ->
  (forall x y, x < n -> y < m -> nth_error (pix v) (x * m + y) = f (Z.of_nat x) (Z.of_nat y)) -> shows v n m f.
Proof.
  intros E1 E2 W H. split; [exact E1|]. split; [exact E2|]. split; [exact W|].
  intros x y Hx Hy. rewrite px_in_Z by lia. rewrite E2. rewrite H by lia. rewrite !Z2Nat.id by lia. reflexivity.
Qed.
Lemma shows_eq {A} (v w : img A) n m f : shows v n m f -> shows w n m f -> v = w.
Proof.
  intros (A1 & A2 & A3 & A4) (B1 & B2 & B3 & B4). destruct v as [n1 m1 p1], w as [n2 m2 p2].
  cbn [nr nc] in *. subst. f_equal. apply list_eq_nth_error. intros k.
  unfold wf in *. cbn [nr nc pix] in *.
  destruct (Nat.lt_ge_cases k (n * m)) as [H|H].
  - destruct (pos_inv n m k H) as (x & y & Hx & Hy & ->).
    specialize (A4 (Z.of_nat x) (Z.of_nat y)). specialize (B4 (Z.of_nat x) (Z.of_nat y)).
    rewrite px_in in A4, B4 by (cbn [nr nc]; assumption). cbn [nc pix] in A4, B4.
    rewrite A4, B4 by lia. reflexivity.
  - rewrite !(proj2 (nth_error_None _ _)) by lia. reflexivity.
Qed.
Lemma shows_self {A} (v : img A) : wf v -> shows v (nr v) (nc v) (px v).
Proof. intros W. repeat split; auto. Qed.

Section I.
Context {A : Type}.
Implicit Types (v w : img A) (def : A).

(* copying a grid of pixels: the source of (x,y) is read through g *)
Lemma copy_grid (g : nat -> nat -> outcome A) (val : nat -> nat -> A) n m (M N u0 u1 : nat) (d : list A) :
  (forall x y, x < n -> y < m -> g x y = Ok (val x y)) ->
  length d = N * M -> n + u0 <= N -> m + u1 <= M ->
  exists d', ofold (fun d '(x, y) => a <- g x y ;; pset M d (x + u0) (y + u1) a) (grid n m) d = Ok d' /\
    length d' = length d /\
    (forall x y, x < n -> y < m -> nth_error d' ((x + u0) * M + (y + u1)) = Some (val x y)) /\
    (forall x y, y < M -> ~ (u0 <= x < n + u0 /\ u1 <= y < m + u1) ->
       nth_error d' (x * M + y) = nth_error d (x * M + y)).
Proof.
  intros Hg L H0 H1.
  destruct (write_all (fun p => (fst p + u0) * M + (snd p + u1)) (fun p => val (fst p) (snd p)) (grid n m) d)
    as (d' & E & L' & O & S).
  { intros [x y] Hp. apply in_grid in Hp. cbn [fst snd]. rewrite L. apply pos_lt; lia. }
  exists d'. split.
  { rewrite <- E. apply (ofold_ext _ _ (fun _ => True)); auto. intros s [x y] _ Hp.
    apply in_grid in Hp. rewrite Hg by lia. reflexivity. }
  split; [exact L'|]. split.
  - intros x y Hx Hy. apply (S (x, y)); [apply in_grid; lia|].
    intros [x' y'] Hq Eq. apply in_grid in Hq. cbn [fst snd] in *.
    apply pos_inj in Eq; [|lia|lia]. assert (x' = x) by lia. assert (y' = y) by lia. subst. reflexivity.
  - intros x y Hy H. apply O. intros [x' y'] Hq Eq. apply in_grid in Hq. cbn [fst snd] in *.
    apply pos_inj in Eq; lia.
Qed.

(* the pixel of a well-formed image as a total function *)
Lemma total_px v : wf v -> forall x y, x < nr v -> y < nc v ->
  exists a, nth_error (pix v) (x * nc v + y) = Some a.
Proof.
  intros W x y Hx Hy. destruct (pget_some v x y W Hx Hy) as (a & _ & E). exists a.
  rewrite <- E. symmetry. apply px_in; assumption.
Qed.

Lemma enlarge_spec v u0 u1 u2 u3 def : wf v -> fits (nr v + u0 + u2) (nc v + u1 + u3) ->
  exists r, enlarge v u0 u1 u2 u3 def = Ok r /\
    shows r (nr v + u0 + u2) (nc v + u1 + u3)
      (fun x y => px_or def v (x - Z.of_nat u0) (y - Z.of_nat u1))%Z.
Proof.
  intros W F. unfold enlarge. pose proof F as (F1 & F2 & F3).
  rewrite !nwrap_small by (unfold two64, two64N in *; lia).
  rewrite filled_ok by exact F. cbn [obind nr nc pix].
  set (N := nr v + u0 + u2) in *. set (M := nc v + u1 + u3) in *.
  destruct (copy_grid (pget v) (fun x y => nth (x * nc v + y) (pix v) def) (nr v) (nc v) M N u0 u1 (repeat def (N * M)))
    as (d' & E & L & S & O).
  - intros x y Hx Hy. destruct (total_px v W x y Hx Hy) as (a & Ea). unfold pget, oget. rewrite Ea.
    f_equal. symmetry. apply nth_error_nth. exact Ea.
  - apply repeat_length.
  - unfold N; lia.
  - unfold M; lia.
  - rewrite E. cbn [obind]. eexists. split; [reflexivity|].
    rewrite repeat_length in L.
    apply shows_nat; cbn [nr nc pix]; [reflexivity|reflexivity|exact L|].
    intros x y Hx Hy. unfold px_or.
    destruct (Nat.le_gt_cases u0 x) as [H1|H1];
    [destruct (Nat.lt_ge_cases x (nr v + u0)) as [H2|H2];
     [destruct (Nat.le_gt_cases u1 y) as [H3|H3];
      [destruct (Nat.lt_ge_cases y (nc v + u1)) as [H4|H4]|]|]|].
    1: { replace (Z.of_nat x - Z.of_nat u0)%Z with (Z.of_nat (x - u0)) by lia.
         replace (Z.of_nat y - Z.of_nat u1)%Z with (Z.of_nat (y - u1)) by lia.
         rewrite px_in by lia. destruct (total_px v W (x - u0) (y - u1)) as (a & Ea); [lia|lia|]. rewrite Ea.
         specialize (S (x - u0) (y - u1)). replace (x - u0 + u0) with x in S by lia.
         replace (y - u1 + u1) with y in S by lia. rewrite S by lia. f_equal. apply nth_error_nth. exact Ea. }
    all: rewrite px_out by lia; rewrite O by lia; apply nth_error_repeat; apply pos_lt; assumption.
Qed.

Lemma shrink_spec dflt v u0 u1 u2 u3 : wf v -> fits (nr v) (nc v) ->
  (Z.of_nat (u0 + u2) < two64)%Z -> (Z.of_nat (u1 + u3) < two64)%Z ->
  exists r, shrink dflt v u0 u1 u2 u3 = Ok r /\
    if (u0 + u2 <? nr v) && (u1 + u3 <? nc v) then
      shows r (nr v - u0 - u2) (nc v - u1 - u3) (fun x y => px v (x + Z.of_nat u0) (y + Z.of_nat u1))%Z
    else r = Img 0 0 [].
Proof.
  intros W F B1 B2. unfold shrink. pose proof F as (F1 & F2 & F3).
  rewrite !nwrap_small by (unfold two64, two64N in *; lia).
  destruct (Nat.ltb_spec (u0 + u2) (nr v)) as [H1|H1], (Nat.leb_spec (nr v) (u0 + u2)) as [H1'|H1']; try lia;
  destruct (Nat.ltb_spec (u1 + u3) (nc v)) as [H2|H2], (Nat.leb_spec (nc v) (u1 + u3)) as [H2'|H2']; try lia;
  cbn [orb andb]; try (eexists; split; reflexivity).
  assert (NS : forall a b, b <= a -> nsub64 a b = a - b).
  { intros a b Hab. unfold nsub64. rewrite (proj2 (Nat.leb_le _ _) Hab). reflexivity. }
  rewrite (NS (nr v) u0), (NS (nc v) u1), NS, NS by lia.
  set (N := nr v - u0 - u2) in *. set (M := nc v - u1 - u3) in *.
  assert (FNM : fits N M).
  { unfold fits. split; [lia|]. split; [lia|]. nia. }
  rewrite filled_ok by exact FNM. cbn [obind nr nc pix].
  destruct (copy_grid (fun x y => pget v (x + u0) (y + u1)) (fun x y => nth ((x + u0) * nc v + (y + u1)) (pix v) dflt)
     N M M N 0 0 (repeat dflt (N * M))) as (d' & E & L & S & O).
  - intros x y Hx Hy. destruct (total_px v W (x + u0) (y + u1)) as (a & Ea); [lia|lia|]. unfold pget, oget. rewrite Ea.
    f_equal. symmetry. apply nth_error_nth. exact Ea.
  - apply repeat_length.
  - lia.
  - lia.
  - rewrite repeat_length in L.
    rewrite (ofold_ext _ (fun d '(x, y) => a <- pget v (x + u0) (y + u1) ;; pset M d (x + 0) (y + 0) a) (fun _ => True)); auto.
    2: { intros s [x y] _ _. rewrite !Nat.add_0_r. reflexivity. }
    rewrite E. cbn [obind]. eexists. split; [reflexivity|].
    apply shows_nat; cbn [nr nc pix]; [reflexivity|reflexivity|exact L|].
    intros x y Hx Hy. replace (Z.of_nat x + Z.of_nat u0)%Z with (Z.of_nat (x + u0)) by lia.
    replace (Z.of_nat y + Z.of_nat u1)%Z with (Z.of_nat (y + u1)) by lia. rewrite px_in by lia.
    specialize (S x y Hx Hy). rewrite !Nat.add_0_r in S. rewrite S.
    destruct (total_px v W (x + u0) (y + u1)) as (a & Ea); [lia|lia|]. rewrite Ea. f_equal. apply nth_error_nth. exact Ea.
Qed.

(* shrink undoes enlarge *)
Lemma shrink_enlarge dflt v u0 u1 u2 u3 def : wf v -> fits (nr v + u0 + u2) (nc v + u1 + u3) ->
  0 < nr v -> 0 < nc v ->
  exists r, enlarge v u0 u1 u2 u3 def = Ok r /\ shrink dflt r u0 u1 u2 u3 = Ok v.
Proof.
  intros W F P1 P2. destruct (enlarge_spec v u0 u1 u2 u3 def W F) as (r & E & S). exists r. split; [exact E|].
  pose proof S as (R1 & R2 & WR & PX). pose proof F as (F1 & F2 & F3).
  destruct (shrink_spec dflt r u0 u1 u2 u3 WR) as (s & Es & Ps); [rewrite R1, R2; exact F|lia|lia|].
  rewrite Es. f_equal. rewrite R1, R2 in Ps.
  rewrite !(proj2 (Nat.ltb_lt _ _)) in Ps by lia. cbn [andb] in Ps.
  replace (nr v + u0 + u2 - u0 - u2) with (nr v) in Ps by lia.
  replace (nc v + u1 + u3 - u1 - u3) with (nc v) in Ps by lia.
  eapply shows_eq; [exact Ps|]. destruct (shows_self v W) as (A1 & A2 & A3 & A4).
  split; [exact A1|]. split; [exact A2|]. split; [exact A3|].
  intros x y Hx Hy. rewrite PX by lia. unfold px_or.
  replace (x + Z.of_nat u0 - Z.of_nat u0)%Z with x by lia. replace (y + Z.of_nat u1 - Z.of_nat u1)%Z with y by lia.
  destruct (px_some v x y W Hx Hy) as (a & Ea). rewrite Ea. reflexivity.
Qed.
End I.
