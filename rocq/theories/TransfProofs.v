(* Proofs about translations, scalings and rotations. *)
From Coq Require Import QArith Qabs Qround Lqa Setoid Lia.
From Verif Require Import Base IndexProofs VecProofs VecProofs2 MatProofs ImageModel ImageSpec ImageProofs ImageProofs3 GenModel.
From Verif Require SplineModel SplineProofs4 SplineProofs5 BilinModel.
From Verif Require Import SplineSpec DrizModel DrizSpec DrizSpec2 DrizProofs12 RegridModel RegridSpec RegridProofs TransfModel TransfSpec.
Local Open Scope nat_scope.

Lemma fill_from {A} n m (e : nat -> nat -> outcome A) (f g : nat -> nat -> A) r0 :
  (forall a b, a < n -> b < m -> e a b = Ok (f a b)) -> rep n m r0 g ->
  exists r, ofold (fun v ix => ofold (fun v iy => z <- e ix iy ;; pset m v ix iy z) (seq 0 m) v)
    (seq 0 n) r0 = Ok r /\ rep n m r f.
Proof.
  intros He R0.
  destruct (ofold_seq_inv (fun a v => rep n m v (fun i j => if i <? a then f i j else g i j))
    (fun v ix => ofold (fun v iy => z <- e ix iy ;; pset m v ix iy z) (seq 0 m) v) n 0 r0) as (r & E & R).
  - eapply rep_ext; [exact R0|]. reflexivity.
  - intros a v Ha R.
    destruct (ofold_seq_inv (fun b v => rep n m v (fun i j => if (i <? a) || ((i =? a) && (j <? b)) then f i j else g i j))
      (fun v iy => z <- e a iy ;; pset m v a iy z) m 0 v) as (v' & E & R').
    + eapply rep_ext; [exact R|]. intros i j Hi Hj. cbv beta. destruct (Nat.ltb_spec j 0); [lia|]. rewrite andb_false_r, orb_false_r. reflexivity.
    + intros b v1 Hb R1. rewrite (He a b) by lia. cbn [obind].
      destruct (rep_set n m v1 _ a b (f a b) R1 ltac:(lia) ltac:(lia)) as (v2 & E2 & R2). exists v2. split; [exact E2|].
      eapply rep_ext; [exact R2|]. intros i j Hi Hj. unfold upd2. cbv beta.
      destruct (Nat.eqb_spec i a) as [->|], (Nat.eqb_spec j b) as [->|]; cbn [andb];
        repeat match goal with |- context [?p <? ?q] => destruct (Nat.ltb_spec p q) end; cbn [orb andb]; try lia; reflexivity.
    + exists v'. split; [exact E|]. eapply rep_ext; [exact R'|]. intros i j Hi Hj. cbv beta.
      destruct (Nat.ltb_spec i a), (Nat.eqb_spec i a), (Nat.ltb_spec j (0 + m)), (Nat.ltb_spec i (a + 1)); cbn [orb andb]; try lia; reflexivity.
  - exists r. split; [exact E|]. eapply rep_ext; [exact R|]. intros i j Hi Hj. cbv beta.
    destruct (Nat.ltb_spec i (0 + n)); [reflexivity|lia].
Qed.

Lemma rep_px {A} n m (r : list A) f i j : rep n m r f -> i < n -> j < m ->
  px (Img n m r) (Z.of_nat i) (Z.of_nat j) = Some (f i j).
Proof.
  intros (L & H) Hi Hj. unfold px. cbn [nr nc pix].
  destruct (((0 <=? Z.of_nat i) && (Z.of_nat i <? Z.of_nat n) && (0 <=? Z.of_nat j) && (Z.of_nat j <? Z.of_nat m))%Z)%bool eqn:E; [|lia].
  rewrite !Nat2Z.id. apply H; assumption.
Qed.
Lemma px_rep {A} (v : img A) f : wf v -> (forall i j, i < nr v -> j < nc v -> px v (Z.of_nat i) (Z.of_nat j) = Some (f i j)) ->
  rep (nr v) (nc v) (pix v) f.
Proof.
  intros W H. split; [exact W|]. intros i j Hi Hj. specialize (H i j Hi Hj). apply px_inv in H. destruct H as (_ & _ & H).
  rewrite !Nat2Z.id in H. exact H.
Qed.

Lemma each_ok n m e r0 (P : nat -> nat -> option Q -> Prop) : length r0 = n * m ->
  (forall y x, y < n -> x < m -> exists z, e y x = Ok z /\ P y x z) ->
  exists im, each_pixel n m e r0 = Ok im /\ sized n m im /\
    forall y x, y < n -> x < m -> exists z, px im (Z.of_nat y) (Z.of_nat x) = Some z /\ P y x z.
Proof.
  intros L H.
  set (f := fun y x => match e y x with Ok z => z | _ => None end).
  destruct (fill_from n m e f (fun i j => nth (i * m + j) r0 None) r0) as (r & E & R).
  - intros a b Ha Hb. unfold f. destruct (H a b Ha Hb) as (z & -> & _). reflexivity.
  - apply rep_total. exact L.
  - exists (Img n m r). unfold each_pixel. rewrite E. cbn [obind]. split; [reflexivity|]. split; [split; [reflexivity|]; split; [reflexivity|]; exact (proj1 R)|].
    intros y x Hy Hx. exists (f y x). split; [apply rep_px; assumption|]. unfold f. destruct (H y x Hy Hx) as (z & -> & K). exact K.
Qed.

Lemma filled_any {A} (z : A) n m : fits n m -> exists r, filled z n m = Ok r /\ length (pix r) = n * m.
Proof. intros F. rewrite filled_ok by exact F. eexists. split; [reflexivity|]. cbn [pix]. apply repeat_length. Qed.

Lemma mod_split p : moderate p -> mod1 (fst p) /\ mod1 (snd p).
Proof. unfold moderate, mod1. tauto. Qed.
Lemma mod_eq p q : peq p q -> moderate q -> moderate p.
Proof. intros [A B] H. unfold moderate in *. rewrite A, B. exact H. Qed.

(* one value *)
Definition eval (w : way) v y x def := match w with Bilinear => bilinear_strict v y x def | Bicubic => bicubic_strict v y x def end.
Lemma eval_ok w def v y x : wf v -> fits (nr v) (nc v) -> (w = Bicubic -> not_thin v) -> 1 <= nr v -> 1 <= nc v ->
  moderate (y, x) -> exists r, eval w v y x def = Ok r /\ value_at w def v (y, x) r.
Proof.
  intros W F T N1 N2 M. destruct (mod_split _ M) as [My Mx]. cbn [fst snd] in *. destruct w; cbn [eval value_at fst snd].
  - apply linear_ok; assumption.
  - destruct (T eq_refl). apply cubic_ok; try assumption; lia.
Qed.

Lemma moved_ok w def v (T : Q -> Q -> point) e r0 : wf v -> fits (nr v) (nc v) -> (w = Bicubic -> not_thin v) ->
  reachable v T -> length r0 = nr v * nc v ->
  (forall y x, y < nr v -> x < nc v -> exists p, peq p (T (inject_Z (Z.of_nat y)) (inject_Z (Z.of_nat x))) /\
     e y x = eval w v (fst p) (snd p) def) ->
  exists r, each_pixel (nr v) (nc v) e r0 = Ok r /\ moved w def v T r.
Proof.
  intros W F Th Re L H.
  destruct (each_ok (nr v) (nc v) e r0 (fun y x z => exists p, peq p (T (inject_Z (Z.of_nat y)) (inject_Z (Z.of_nat x))) /\ value_at w def v p z)) as (im & E & S & K).
  - exact L.
  - intros y x Hy Hx. destruct (H y x Hy Hx) as (p & Ep & Ee). rewrite Ee.
    assert (M : moderate (fst p, snd p)).
    { apply (mod_eq _ (T (inject_Z (Z.of_nat y)) (inject_Z (Z.of_nat x)))); [exact Ep|]. apply Re. split; lia. }
    destruct (eval_ok w def v (fst p) (snd p) W F Th ltac:(lia) ltac:(lia) M) as (r & Er & V). exists r. split; [exact Er|].
    exists p. split; [exact Ep|]. destruct p; exact V.
  - exists im. split; [exact E|]. split; [exact S|]. intros y x [Hx Hy].
    destruct (K (Z.to_nat y) (Z.to_nat x) ltac:(lia) ltac:(lia)) as (z & Ez & p & Ep & V).
    rewrite !Z2Nat.id in Ez, Ep by lia. exists p, z. auto.
Qed.

Lemma qn_mid d : qn (d / 2) = mid d.
Proof. unfold mid. apply qn_half. Qed.
Lemma from_mid_ok d y : (from_mid d y == inject_Z (Z.of_nat y) - mid d)%Q.
Proof.
  unfold from_mid, mid. rewrite Nat2Z.inj_div. change (Z.of_nat 2) with 2%Z. unfold Z.sub. rewrite inject_Z_plus, inject_Z_opp. reflexivity.
Qed.
Lemma scaled_ok d f y : ~ (f == 0)%Q -> exists p, scaled d f y = Ok p /\ (p == (inject_Z (Z.of_nat y) - mid d) / f + mid d)%Q.
Proof.
  intros H. unfold scaled. destruct (Qeq_bool f 0) eqn:E; [apply Qeq_bool_iff in E; contradiction|].
  eexists. split; [reflexivity|]. rewrite from_mid_ok, qn_mid. reflexivity.
Qed.

(* at whole positions *)
Lemma cell_int t k k' : (t == inject_Z k)%Q -> cell_of t k' -> k' = k.
Proof.
  intros E [A B]. rewrite E in A, B. rewrite <- Zle_Qle in A.
  change 1%Q with (inject_Z 1) in B. rewrite <- inject_Z_plus, <- Zlt_Qlt in B. lia.
Qed.
Lemma linear_int def v p i j r : all_finite v -> peq p (inject_Z i, inject_Z j) -> value_at Bilinear def v p r ->
  if ((0 <=? i) && (i + 1 <? Z.of_nat (nr v)) && (0 <=? j) && (j + 1 <? Z.of_nat (nc v)))%Z%bool
  then exists a, px v i j = Some a /\ oqeq r a else r = def.
Proof.
  intros Fi [Ei Ej] (i' & j' & Ci & Cj & H). cbn [fst snd] in Ei, Ej.
  rewrite (cell_int _ i i' Ei Ci), (cell_int _ j j' Ej Cj) in H. cbv zeta in H.
  destruct (((0 <=? i) && (i + 1 <? Z.of_nat (nr v)) && (0 <=? j) && (j + 1 <? Z.of_nat (nc v)))%Z)%bool eqn:G.
  - destruct H as [(_ & a & b & c & d & q & P1 & _ & _ & _ & E & Eq)|[((A1 & A2 & A3 & A4) & (i2 & j2 & H1 & H2 & P) & _)|(N & _)]].
    + exists (Some a). split; [exact P1|]. subst r. cbn [oqeq]. rewrite Eq. unfold mix. rewrite Ei, Ej. ring.
    + exfalso. destruct (Fi i2 j2) as (a & E); [split; lia|]. congruence.
    + exfalso. apply N. lia.
  - destruct H as [(A & _)|[(A & _)|(_ & E)]]; [exfalso; lia|exfalso; lia|exact E].
Qed.
Lemma moved_int def v T r g : all_finite v -> moved Bilinear def v T r ->
  (forall y x, peq (T (inject_Z y) (inject_Z x)) (inject_Z (fst (g y x)), inject_Z (snd (g y x)))) -> copies v r def g.
Proof.
  intros Fi (S & H) G. split; [exact S|]. intros y x O. destruct (H y x O) as (p & q & Ep & V & Eq). exists q. split; [exact Eq|].
  specialize (G y x). destruct (g y x) as [i j]. cbn [fst snd] in G. eapply linear_int; [exact Fi| |exact V].
  destruct Ep as [E1 E2], G as [G1 G2]. split; cbn [fst snd] in *; [rewrite E1; exact G1|rewrite E2; exact G2].
Qed.
