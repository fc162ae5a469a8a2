(* Lemmas on matrices, part 7: diagonals and the 3x3 transformations, element by element. *)
From Coq Require Import NArith ZifyBool ZifyNat.
From Verif Require Import Base IndexModel IndexProofs VecModel VecProofs ImageModel ImageSpec ImageProofs MatModel MatProofs.

Section D.
Context {F : Type} (zero one : F) (fopp : F -> F).

Lemma diagonal_ok n (v : img F) A : nr v = n -> nc v = n -> rep n n (pix v) A ->
  exists d, diagonal zero v = Ok d /\ repv n d (fun i => A i i).
Proof.
  intros Hr Hc R. unfold diagonal, pget. rewrite Hr, Hc, Nat.eqb_refl. cbn [check obind].
  match goal with |- context [ofold ?f (seq 0 n) _] =>
    destruct (ofold_seq_inv (fun k d => repv n d (fun i => if i <? k then A i i else zero))
      f n 0 (repeat zero n)) as (d & E & R') end.
  - exact (repv_repeat n zero).
  - intros k d Hk Rd. fold (at2 n (pix v) k k). rewrite (rep_get n n _ A k k R) by lia. cbn [obind].
    destruct (repv_set n d _ k (A k k) Rd) as (d' & E & R'); [lia|]. exists d'. split; [exact E|].
    eapply repv_ext; [exact R'|]. intros i Hi. unfold upd1. cbv beta.
    destruct (Nat.eqb_spec i k), (Nat.ltb_spec i k), (Nat.ltb_spec i (k + 1)); subst; try lia; reflexivity.
  - exists d. split; [exact E|]. eapply repv_ext; [exact R'|]. intros i Hi. cbv beta.
    destruct (Nat.ltb_spec i (0 + n)); [reflexivity|lia].
Qed.

Lemma diag_fold n (g : nat -> F) (src : nat -> outcome F) d A : (forall i, i < n -> src i = Ok (g i)) ->
  rep n n d A ->
  exists d', ofold (fun d i => x <- src i ;; pset n d i i x) (seq 0 n) d = Ok d' /\
    rep n n d' (fun i j => if i =? j then g i else A i j).
Proof.
  intros Hg R.
  match goal with |- context [ofold ?f (seq 0 n) _] =>
    destruct (ofold_seq_inv (fun k d => rep n n d (fun i j => if (i =? j) && (i <? k) then g i else A i j))
      f n 0 d) as (d' & E & R') end.
  - eapply rep_ext; [exact R|]. intros i j _ _. cbn. rewrite andb_false_r. reflexivity.
  - intros k d0 Hk Rd. rewrite Hg by lia. cbn [obind].
    destruct (rep_set n n d0 _ k k (g k) Rd) as (d' & E & R'); [lia..|]. exists d'. split; [exact E|].
    eapply rep_ext; [exact R'|]. intros i j Hi Hj. unfold upd2. cbv beta.
    destruct (Nat.eqb_spec i k), (Nat.eqb_spec j k), (Nat.eqb_spec i j), (Nat.ltb_spec i k), (Nat.ltb_spec i (k + 1));
      cbn [andb]; subst; try lia; reflexivity.
  - exists d'. split; [exact E|]. eapply rep_ext; [exact R'|]. intros i j Hi Hj. cbv beta.
    destruct (Nat.ltb_spec i (0 + n)); [|lia]. rewrite andb_true_r. reflexivity.
Qed.

Lemma fill_diagonal_ok n (v : img F) A x : nr v = n -> nc v = n -> rep n n (pix v) A ->
  exists d, fill_diagonal v x = Ok (Img n n d) /\ rep n n d (fun i j => if i =? j then x else A i j).
Proof.
  intros Hr Hc R. unfold fill_diagonal. rewrite Hr, Hc, Nat.eqb_refl. cbn [check obind].
  destruct (diag_fold n (fun _ => x) (fun _ => Ok x) (pix v) A (fun _ _ => eq_refl) R) as (d & E & R').
  cbn [obind] in E. rewrite E. cbn [obind]. eauto.
Qed.

Lemma as_diagonal_ok n (l : list F) V : fits n n -> repv n l V ->
  exists d, as_diagonal zero l = Ok (Img n n d) /\ rep n n d (fun i j => if i =? j then V i else zero).
Proof.
  intros Hf R. unfold as_diagonal. pose proof R as (L & _). rewrite L, filled_ok by exact Hf. cbn [obind nr nc pix].
  destruct (diag_fold n V (oget l) (repeat zero (n * n)) (fun _ _ => zero)) as (d & E & R').
  { intros i Hi. apply (repv_get n); assumption. }
  { apply rep_repeat. }
  rewrite E. cbn [obind]. eauto.
Qed.

Lemma make_identity_ok n : fits n n ->
  exists d, make_identity zero one n = Ok (Img n n d) /\ rep n n d (fun i j => if i =? j then one else zero).
Proof.
  intros Hf. unfold make_identity. rewrite filled_ok by exact Hf. cbn [obind].
  apply (fill_diagonal_ok n _ (fun _ _ => zero)); [reflexivity..|apply rep_repeat].
Qed.

Lemma fits3 : fits 3 3.
Proof. unfold fits, two64, two63 in *. cbn. lia. Qed.

Lemma make_scale_eq sx sy : make_scale zero one sx sy = Ok (Img 3 3 [sx; zero; zero; zero; sy; zero; zero; zero; one]).
Proof. unfold make_scale. rewrite filled_ok by exact fits3. reflexivity. Qed.
Lemma make_translation_eq tx ty :
  make_translation zero one tx ty = Ok (Img 3 3 [one; zero; tx; zero; one; ty; zero; zero; one]).
Proof. unfold make_translation. rewrite filled_ok by exact fits3. reflexivity. Qed.
Lemma make_rotation_eq ca sa :
  make_rotation zero one fopp ca sa = Ok (Img 3 3 [ca; fopp sa; zero; sa; ca; zero; zero; zero; one]).
Proof. unfold make_rotation. rewrite filled_ok by exact fits3. reflexivity. Qed.
End D.
