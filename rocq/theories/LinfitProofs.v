(* Lemmas on linear fits, part 1: the loops. *)
From Coq Require Import NArith ZifyBool ZifyNat.
From Verif Require Import Base IndexModel IndexProofs VecModel VecProofs VecProofs2 ImageModel ImageSpec
  ImageProofs MatModel MatProofs MatProofs4 LinfitModel.
Local Open Scope nat_scope.

Lemma u2_same {F} (W : nat -> nat -> F) i j a : upd2 W i j a i j = a.
Proof. unfold upd2. rewrite !Nat.eqb_refl. reflexivity. Qed.
Lemma u2_other {F} (W : nat -> nat -> F) i j a i' j' : i' <> i \/ j' <> j -> upd2 W i j a i' j' = W i' j'.
Proof.
  intros H. unfold upd2. destruct (Nat.eqb_spec i' i), (Nat.eqb_spec j' j); cbn [andb]; try reflexivity. lia.
Qed.
Lemma u1_same {F} (V : nat -> F) i a : upd1 V i a i = a.
Proof. unfold upd1. rewrite Nat.eqb_refl. reflexivity. Qed.

Section Rows.
Context {F : Type} (np nm : nat) (c : img F) (C : nat -> nat -> F).
Context (Hr : nr c = np) (Hc : nc c = nm) (RC : rep np nm (pix c) C).
(* rows *)
Lemma set_row_vec i l L dd : i < np -> repv nm l L ->
  exists d', set_row c i (AV dd l) = Ok (Img np nm d') /\ rep np nm d' (fun a m => if a =? i then L m else C a m).
Proof.
  intros Hi (Ll & HL). unfold set_row. rewrite Hr, Hc, Ll, Nat.eqb_refl. cbn [check obind].
  destruct (ofold_seq_inv (fun k d => rep np nm d (fun a m => if (a =? i) && (m <? k) then L m else C a m))
     (fun d m => x <- oget l m ;; pset nm d i m x) nm 0 (pix c)) as (d' & E & R').
  - eapply rep_ext; [exact RC|]. intros a b _ _. rewrite andb_false_r. reflexivity.
  - intros k d1 Hk R1. unfold oget. rewrite HL by lia. cbn [obind].
    destruct (rep_set np nm d1 _ i k (L k) R1 Hi) as (d2 & E2 & R2); [lia|]. exists d2. split; [exact E2|].
    eapply rep_ext; [exact R2|]. intros a b Ha Hb. unfold upd2.
    destruct (Nat.eqb_spec a i), (Nat.eqb_spec b k), (Nat.ltb_spec b k), (Nat.ltb_spec b (k + 1)); cbn [andb]; subst; try lia; reflexivity.
  - rewrite E. cbn [obind]. exists d'. split; [reflexivity|]. eapply rep_ext; [exact R'|]. intros a b Ha Hb. cbn beta.
    replace (b <? 0 + nm) with true by (symmetry; apply Nat.ltb_lt; lia). rewrite andb_true_r. reflexivity.
Qed.
Lemma set_row_scalar i x : i < np ->
  exists d', set_row c i (AS x) = Ok (Img np nm d') /\ rep np nm d' (fun a m => if a =? i then x else C a m).
Proof.
  intros Hi. unfold set_row. rewrite Hr, Hc.
  destruct (ofold_seq_inv (fun k d => rep np nm d (fun a m => if (a =? i) && (m <? k) then x else C a m))
     (fun d m => pset nm d i m x) nm 0 (pix c)) as (d' & E & R').
  - eapply rep_ext; [exact RC|]. intros a b _ _. rewrite andb_false_r. reflexivity.
  - intros k d1 Hk R1. destruct (rep_set np nm d1 _ i k x R1 Hi) as (d2 & E2 & R2); [lia|]. exists d2. split; [exact E2|].
    eapply rep_ext; [exact R2|]. intros a b Ha Hb. unfold upd2.
    destruct (Nat.eqb_spec a i), (Nat.eqb_spec b k), (Nat.ltb_spec b k), (Nat.ltb_spec b (k + 1)); cbn [andb]; subst; try lia; reflexivity.
  - rewrite E. cbn [obind]. exists d'. split; [reflexivity|]. eapply rep_ext; [exact R'|]. intros a b Ha Hb. cbn beta.
    replace (b <? 0 + nm) with true by (symmetry; apply Nat.ltb_lt; lia). rewrite andb_true_r. reflexivity.
Qed.
End Rows.

Section L.
Context {F : Type} (zero : F) (fadd fmul : F -> F -> F).
Implicit Types (d : list F) (A C : nat -> nat -> F).

Definition gramf C (nm i j : nat) : F := adds fadd (fun m => fmul (C i m) (C j m)) (seq 0 nm) zero.
Definition betaf C (Y : nat -> F) (nm i : nat) : F := adds fadd (fun m => fmul (C i m) (Y m)) (seq 0 nm) zero.

Lemma adds_snoc (f : nat -> F) k a : adds fadd f (seq 0 (k + 1)) a = fadd (adds fadd f (seq 0 k) a) (f k).
Proof. unfold adds. rewrite seq_app, fold_left_app. reflexivity. Qed.


Section Cache.
Context (np nm : nat) (c : img F) (C : nat -> nat -> F).
Context (Hr : nr c = np) (Hc : nc c = nm) (RC : rep np nm (pix c) C).

Lemma pgetC i m : i < np -> m < nm -> pget c i m = Ok (C i m).
Proof. intros Hi Hm. unfold pget. rewrite Hc. exact (rep_get np nm _ _ _ _ RC Hi Hm). Qed.

Lemma gram_sum_ok d A i j : rep np np d A -> i < np -> j < np ->
  exists d', gram_sum zero fadd fmul np c d i j = Ok d' /\ rep np np d' (upd2 A i j (gramf C nm i j)).
Proof.
  intros Rd Hi Hj. unfold gram_sum.
  destruct (rep_set np np d A i j zero Rd Hi Hj) as (d0 & E0 & R0). rewrite E0. cbn [obind]. rewrite Hc.
  apply (ofold_seq_inv (fun k d => rep np np d
    (upd2 A i j (adds fadd (fun m => fmul (C i m) (C j m)) (seq 0 k) zero)))).
  - exact R0.
  - intros k d1 Hk R1. rewrite (rep_get _ _ _ _ _ _ R1 Hi Hj), (pgetC i k Hi) by lia.
    rewrite (pgetC j k Hj) by lia. cbn [obind].
    match goal with |- exists s', pset _ _ _ _ ?v = _ /\ _ =>
      destruct (rep_set np np d1 _ i j v R1 Hi Hj) as (d2 & E2 & R2) end.
    exists d2. split; [exact E2|]. eapply rep_ext; [exact R2|]. intros a b Ha Hb.
    rewrite u2_same. rewrite adds_snoc. unfold upd2.
    destruct ((a =? i) && (b =? j)); reflexivity.
Qed.

Definition gramc (a b : nat) : F := if a <=? b then gramf C nm a b else gramf C nm b a.
Lemma gram_row_ok i d : i < np ->
  (exists A, rep np np d A /\ forall a b, a < i -> b < np -> A a b = gramc a b) ->
  exists d', ofold (gram_cell zero fadd fmul np c i) (seq 0 np) d = Ok d' /\
    exists A, rep np np d' A /\ forall a b, a < i + 1 -> b < np -> A a b = gramc a b.
Proof.
  intros Hi (A & Rd & HA).
  destruct (ofold_seq_inv (fun k d => exists A, rep np np d A /\
      (forall a b, a < i -> b < np -> A a b = gramc a b) /\ forall b, b < k -> A i b = gramc i b)
      (gram_cell zero fadd fmul np c i) np 0 d) as (d' & E & A' & R' & H1 & H2).
  - exists A. split; [exact Rd|]. split; [exact HA|intros; lia].
  - intros k d1 Hk (A1 & R1 & H1 & H2). unfold gram_cell. destruct (Nat.leb_spec i k) as [Hik|Hik].
    + destruct (gram_sum_ok d1 A1 i k R1 Hi) as (d2 & E2 & R2); [lia|].
      exists d2. split; [exact E2|]. exists (upd2 A1 i k (gramf C nm i k)). split; [exact R2|]. split.
      * intros a b Ha Hb. rewrite u2_other by lia. auto.
      * intros b Hb. destruct (Nat.eq_dec b k) as [->|N].
        -- rewrite u2_same. unfold gramc. destruct (Nat.leb_spec i k); [reflexivity|lia].
        -- rewrite u2_other by lia. apply H2. lia.
    + rewrite (rep_get _ _ _ _ k i R1) by lia. cbn [obind].
      destruct (rep_set np np d1 A1 i k (A1 k i) R1 Hi) as (d2 & E2 & R2); [lia|].
      exists d2. split; [exact E2|]. exists (upd2 A1 i k (A1 k i)). split; [exact R2|]. split.
      * intros a b Ha Hb. rewrite u2_other by lia. auto.
      * intros b Hb. destruct (Nat.eq_dec b k) as [->|N].
        -- rewrite u2_same, H1 by lia. unfold gramc.
           destruct (Nat.leb_spec k i), (Nat.leb_spec i k); try lia; reflexivity.
        -- rewrite u2_other by lia. apply H2. lia.
  - exists d'. split; [exact E|]. exists A'. split; [exact R'|]. intros a b Ha Hb.
    destruct (Nat.eq_dec a i) as [->|N]; [apply H2; lia|apply H1; lia].
Qed.

Lemma beta_sum_ok ny Y b B i : repv nm ny Y -> repv np b B -> i < np ->
  exists b', beta_sum zero fadd fmul c ny b i = Ok b' /\ repv np b' (upd1 B i (betaf C Y nm i)).
Proof.
  intros RY Rb Hi. unfold beta_sum.
  destruct (repv_set np b B i zero Rb Hi) as (b0 & E0 & R0). rewrite E0. cbn [obind]. rewrite Hc.
  apply (ofold_seq_inv (fun k b => repv np b
    (upd1 B i (adds fadd (fun m => fmul (C i m) (Y m)) (seq 0 k) zero)))).
  - exact R0.
  - intros k b1 Hk R1. rewrite (repv_get _ _ _ _ R1 Hi), (pgetC i k Hi) by lia.
    rewrite (repv_get _ _ _ _ RY) by lia. cbn [obind].
    match goal with |- exists s', oset _ _ ?v = _ /\ _ =>
      destruct (repv_set np b1 _ i v R1 Hi) as (b2 & E2 & R2) end.
    exists b2. split; [exact E2|]. eapply repv_ext; [exact R2|]. intros a Ha.
    rewrite u1_same. rewrite adds_snoc. unfold upd1.
    destruct (a =? i); reflexivity.
Qed.
Lemma beta_loop_ok ny Y b : repv nm ny Y -> length b = np ->
  exists b', ofold (beta_sum zero fadd fmul c ny) (seq 0 np) b = Ok b' /\ repv np b' (betaf C Y nm).
Proof.
  intros RY L.
  destruct (ofold_seq_inv (fun k b => exists B, repv np b B /\ forall a, a < k -> B a = betaf C Y nm a)
      (beta_sum zero fadd fmul c ny) np 0 b) as (b' & E & B' & R' & H').
  - exists (fun i => nth i b zero). split; [apply repv_total; exact L|intros; lia].
  - intros k b1 Hk (B1 & R1 & H1). destruct (beta_sum_ok ny Y b1 B1 k RY R1) as (b2 & E2 & R2); [lia|].
    exists b2. split; [exact E2|]. eexists. split; [exact R2|]. intros a Ha. unfold upd1.
    destruct (Nat.eqb_spec a k) as [->|N]; [reflexivity|apply H1; lia].
  - exists b'. split; [exact E|]. eapply repv_ext; [exact R'|]. intros a Ha. apply H'. lia.
Qed.

Lemma gram_all_ok : fits np np ->
  exists d', (a <- filled zero np np ;; ofold (fun d i => ofold (gram_cell zero fadd fmul np c i) (seq 0 np) d) (seq 0 np) (pix a)) = Ok d'
    /\ rep np np d' gramc.
Proof.
  intros Hf. rewrite (filled_ok zero np np Hf). cbn [obind pix].
  destruct (ofold_seq_inv (fun k d => exists A, rep np np d A /\ forall a b, a < k -> b < np -> A a b = gramc a b)
      (fun d i => ofold (gram_cell zero fadd fmul np c i) (seq 0 np) d) np 0 (repeat zero (np * np)))
    as (d' & E & A' & R' & H').
  - exists (fun _ _ => zero). split; [apply rep_repeat|intros; lia].
  - intros k d1 Hk H1. apply gram_row_ok; [lia|exact H1].
  - exists d'. split; [exact E|]. eapply rep_ext; [exact R'|]. intros a b Ha Hb. apply H'; [lia|exact Hb].
Qed.

Lemma make_alpha_beta_ok ny Y : fits np np -> repv nm ny Y ->
  exists d b, make_alpha_beta zero fadd fmul ny c = Ok (Img np np d, b) /\
    rep np np d gramc /\ repv np b (betaf C Y nm).
Proof.
  intros Hf RY. unfold make_alpha_beta. rewrite Hr, (filled_ok zero np np Hf). cbn [obind pix].
  destruct (ofold_seq_inv (fun k '(d, b) =>
      (exists A, rep np np d A /\ forall a b, a < k -> b < np -> A a b = gramc a b) /\
      (exists B, repv np b B /\ forall a, a < k -> B a = betaf C Y nm a))
      (fun '(d, b) i => d <- ofold (gram_cell zero fadd fmul np c i) (seq 0 np) d ;;
                        b <- beta_sum zero fadd fmul c ny b i ;; Ok (d, b)) np 0
      (repeat zero (np * np), repeat zero np)) as ((d' & b') & E & (A' & RA & HA) & (B' & RB & HB)).
  - split.
    + exists (fun _ _ => zero). split; [apply rep_repeat|intros; lia].
    + exists (fun _ => zero). split; [apply repv_repeat|intros; lia].
  - intros k (d1 & b1) Hk (H1 & (B1 & R1 & HB1)).
    destruct (gram_row_ok k d1) as (d2 & E2 & H2); [lia|exact H1|].
    destruct (beta_sum_ok ny Y b1 B1 k RY R1) as (b2 & E3 & R3); [lia|].
    rewrite E2. cbn [obind]. rewrite E3. cbn [obind]. eexists. split; [reflexivity|]. split; [exact H2|].
    eexists. split; [exact R3|]. intros a Ha. unfold upd1.
    destruct (Nat.eqb_spec a k) as [->|N]; [reflexivity|apply HB1; lia].
  - rewrite E. cbn [obind]. exists d', b'. split; [reflexivity|]. split.
    + eapply rep_ext; [exact RA|]. intros a b Ha Hb. apply HA; [lia|exact Hb].
    + eapply repv_ext; [exact RB|]. intros a Ha. apply HB. lia.
Qed.

(* the row and the column i *)
Lemma update_matrix_i_ok d A i : rep np np d A -> i < np ->
  exists d', ofold (fun d j => d <- gram_sum zero fadd fmul np c d i j ;; x <- at2 np d i j ;; pset np d j i x)
               (seq 0 np) d = Ok d' /\
    rep np np d' (fun a b => if a =? i then gramf C nm i b else if b =? i then gramf C nm i a else A a b).
Proof.
  intros Rd Hi.
  destruct (ofold_seq_inv (fun k d => rep np np d (fun a b =>
      if (a =? i) && (b <? k) then gramf C nm i b else if (b =? i) && (a <? k) then gramf C nm i a else A a b))
      (fun d j => d <- gram_sum zero fadd fmul np c d i j ;; x <- at2 np d i j ;; pset np d j i x) np 0 d)
    as (d' & E & R').
  - eapply rep_ext; [exact Rd|]. intros a b _ _. rewrite !andb_false_r. reflexivity.
  - intros k d1 Hk R1. assert (Hk' : k < np) by lia.
    destruct (gram_sum_ok d1 _ i k R1 Hi Hk') as (d2 & E2 & R2). rewrite E2. cbn [obind].
    rewrite (rep_get _ _ _ _ _ _ R2 Hi Hk'), u2_same. cbn [obind].
    destruct (rep_set np np d2 _ k i (gramf C nm i k) R2 Hk' Hi) as (d3 & E3 & R3).
    exists d3. split; [exact E3|]. eapply rep_ext; [exact R3|]. intros a b Ha Hb. unfold upd2.
    destruct (Nat.eqb_spec a k), (Nat.eqb_spec a i), (Nat.eqb_spec b i), (Nat.eqb_spec b k),
      (Nat.ltb_spec b k), (Nat.ltb_spec b (k + 1)), (Nat.ltb_spec a k), (Nat.ltb_spec a (k + 1));
      cbn [andb]; subst; try lia; try reflexivity.
  - exists d'. split; [exact E|]. eapply rep_ext; [exact R'|]. intros a b Ha Hb. cbn beta.
    replace (b <? 0 + np) with true by (symmetry; apply Nat.ltb_lt; lia).
    replace (a <? 0 + np) with true by (symmetry; apply Nat.ltb_lt; lia). rewrite !andb_true_r. reflexivity.
Qed.

Definition modelf (P : nat -> option F) (m : nat) : option F :=
  fold_left (fun s i => lift2 fadd s (lift2 fmul (P i) (Some (C i m)))) (seq 0 np) (Some zero).
Lemma make_model_ok ps P : repv np ps P ->
  exists l, make_model zero fadd fmul c ps = Ok l /\ repv nm l (modelf P).
Proof.
  intros RP. unfold make_model. rewrite Hr, Hc.
  destruct (ofold_seq_inv (fun k l => exists V, repv nm l V /\ forall m, m < k -> V m = modelf P m)
     (fun l m => l <- oset l m (Some zero) ;;
      ofold (fun l i => s <- oget l m ;; p <- oget ps i ;; x <- pget c i m ;;
                        oset l m (lift2 fadd s (lift2 fmul p (Some x)))) (seq 0 np) l) nm 0
      (repeat (Some zero) nm)) as (l & E & V & R & H).
  - exists (fun _ => Some zero). split; [apply repv_repeat|intros; lia].
  - intros m l1 Hm (V1 & R1 & H1).
    destruct (repv_set nm l1 V1 m (Some zero) R1) as (l2 & E2 & R2); [lia|]. rewrite E2. cbn [obind].
    destruct (ofold_seq_inv (fun k l => repv nm l (upd1 V1 m
        (fold_left (fun s i => lift2 fadd s (lift2 fmul (P i) (Some (C i m)))) (seq 0 k) (Some zero))))
      (fun l i => s <- oget l m ;; p <- oget ps i ;; x <- pget c i m ;;
                        oset l m (lift2 fadd s (lift2 fmul p (Some x)))) np 0 l2) as (l3 & E3 & R3).
    + exact R2.
    + intros k l4 Hk R4. rewrite (repv_get _ _ _ _ R4) by lia. rewrite (repv_get _ _ _ _ RP) by lia.
      rewrite pgetC by lia. cbn [obind]. rewrite u1_same.
      match goal with |- exists s', oset _ _ ?v = _ /\ _ =>
        destruct (repv_set nm l4 _ m v R4) as (l5 & E5 & R5); [lia|] end.
      exists l5. split; [exact E5|]. eapply repv_ext; [exact R5|]. intros a Ha.
      rewrite seq_app, fold_left_app. cbn [fold_left Nat.add]. unfold upd1. destruct (a =? m); reflexivity.
    + exists l3. split; [exact E3|]. eexists. split; [exact R3|]. intros a Ha. unfold upd1, modelf.
      destruct (Nat.eqb_spec a m) as [->|N]; [reflexivity|apply H1; lia].
  - exists l. split; [exact E|]. eapply repv_ext; [exact R|]. intros a Ha. apply H. lia.
Qed.
(* finite parameters *)
Lemma modelf_some V m : modelf (fun i => Some (V i)) m =
  Some (adds fadd (fun i => fmul (V i) (C i m)) (seq 0 np) zero).
Proof.
  unfold modelf, adds. generalize zero as s. induction (seq 0 np) as [|i l IH]; intros s; [reflexivity|].
  cbn [fold_left lift2]. apply IH.
Qed.

End Cache.

(* total(sqr(model - ny)) *)
Context (fsub : F -> F -> F).
Lemma total_sqr_ok n l L ny Y : repv n l (fun m => Some (L m)) -> repv n ny Y ->
  total_sqr zero fadd fsub fmul l ny =
  Ok (Some (adds fadd (fun m => fmul (fsub (L m) (Y m)) (fsub (L m) (Y m))) (seq 0 n) zero)).
Proof.
  intros Rl Ry. unfold total_sqr. rewrite (proj1 Rl), (proj1 Ry), Nat.eqb_refl. cbn [check obind].
  rewrite (repv_list _ _ _ Rl), (repv_list _ _ _ Ry). f_equal. unfold adds. generalize zero as s.
  induction (seq 0 n) as [|i q IH]; intros s; [reflexivity|]. cbn [map combine fold_left lift2]. apply IH.
Qed.
Lemma total_sqr_nan n l L ny Y : repv n l L -> repv n ny Y -> (exists m, m < n /\ L m = None) ->
  total_sqr zero fadd fsub fmul l ny = Ok None.
Proof.
  intros Rl Ry (m & Hm & Em). unfold total_sqr. rewrite (proj1 Rl), (proj1 Ry), Nat.eqb_refl. cbn [check obind].
  rewrite (repv_list _ _ _ Rl), (repv_list _ _ _ Ry). f_equal.
  assert (N : forall q, fold_left (fun s '(a, b) => let r := lift2 fsub a (Some b) in lift2 fadd s (lift2 fmul r r))
       (combine (map L q) (map Y q)) None = None).
  { induction q as [|i q IH]; [reflexivity|]. cbn [map combine fold_left]. exact IH. }
  assert (In m (seq 0 n)) as Hi by (apply in_seq; lia). revert Hi. generalize (Some zero) as s.
  induction (seq 0 n) as [|i q IH]; intros s Hi; [destruct Hi|]. cbn [map combine fold_left].
  destruct Hi as [->|Hi]; [|apply IH; exact Hi]. rewrite Em. cbn [lift2].
  replace (lift2 fadd s None) with (@None F) by (destruct s; reflexivity). apply N.
Qed.
End L.

Section Pack.
Context {F : Type} (zero : F) (fdiv : F -> F -> F).
Lemma div_row_ok np nm d C i (x es : nat -> outcome F) X E : i < np ->
  (forall j, j < nm -> x j = Ok (X j)) -> (forall j, j < nm -> es j = Ok (E j)) -> rep np nm d C ->
  exists d', ofold (fun d j => a <- x j ;; e <- es j ;; pset nm d i j (fdiv a e)) (seq 0 nm) d = Ok d' /\
    rep np nm d' (fun a m => if a =? i then fdiv (X m) (E m) else C a m).
Proof.
  intros Hi HX HE RC.
  destruct (ofold_seq_inv (fun k d => rep np nm d (fun a m => if (a =? i) && (m <? k) then fdiv (X m) (E m) else C a m))
     (fun d j => a <- x j ;; e <- es j ;; pset nm d i j (fdiv a e)) nm 0 d) as (d' & Ed & R').
  - eapply rep_ext; [exact RC|]. intros a b _ _. rewrite andb_false_r. reflexivity.
  - intros k d1 Hk R1. rewrite HX, HE by lia. cbn [obind].
    destruct (rep_set np nm d1 _ i k (fdiv (X k) (E k)) R1 Hi) as (d2 & E2 & R2); [lia|]. exists d2. split; [exact E2|].
    eapply rep_ext; [exact R2|]. intros a b Ha Hb. unfold upd2.
    destruct (Nat.eqb_spec a i), (Nat.eqb_spec b k), (Nat.ltb_spec b k), (Nat.ltb_spec b (k + 1)); cbn [andb]; subst; try lia; reflexivity.
  - exists d'. split; [exact Ed|]. eapply rep_ext; [exact R'|]. intros a b Ha Hb. cbn beta.
    replace (b <? 0 + nm) with true by (symmetry; apply Nat.ltb_lt; lia). rewrite andb_true_r. reflexivity.
Qed.
Lemma pack_loop_ok np nm pitch x es (c : img F) X E : nr c = np -> nc c = nm -> length (pix c) = np * nm ->
  (forall i j, i < np -> j < nm -> oget x (i * pitch + j) = Ok (X i j)) ->
  (forall j, j < nm -> oget es j = Ok (E j)) ->
  exists d, pack_loop fdiv pitch x es c = Ok (Img np nm d) /\ rep np nm d (fun i j => fdiv (X i j) (E j)).
Proof.
  intros Hr Hc L HX HE. unfold pack_loop, grid. rewrite Hr, Hc, ofold_list_prod.
  destruct (ofold_seq_inv (fun k d => exists M, rep np nm d M /\
      forall i j, i < k -> j < nm -> M i j = fdiv (X i j) (E j))
    (fun d i => ofold (fun d j => a <- oget x (i * pitch + j) ;; e <- oget es j ;; pset nm d i j (fdiv a e)) (seq 0 nm) d)
    np 0 (pix c)) as (d & Ed & M & R & H).
  - exists (fun i j => nth (i * nm + j) (pix c) zero). split; [apply rep_total; exact L|intros; lia].
  - intros k d1 Hk (M1 & R1 & H1).
    destruct (div_row_ok np nm d1 M1 k (fun j => oget x (k * pitch + j)) (fun j => oget es j) (X k) E)
      as (d2 & E2 & R2); [lia|intros; apply HX; lia|exact HE|exact R1|].
    exists d2. split; [exact E2|]. eexists. split; [exact R2|]. intros a b Ha Hb. cbn beta.
    destruct (Nat.eqb_spec a k) as [->|N]; [reflexivity|apply H1; lia].
  - rewrite Ed. cbn [obind]. exists d. split; [reflexivity|]. eapply rep_ext; [exact R|].
    intros i j Hi Hj. apply H; [lia|exact Hj].
Qed.
(* reading past the end of the models *)
Lemma div_row_UB nm (x es : nat -> outcome F) i (E : nat -> F) k : k < nm ->
  (forall j, j < k -> exists a, x j = Ok a) -> x k = UB -> (forall j, j < nm -> es j = Ok (E j)) ->
  forall d, (forall j, j < nm -> i * nm + j < length d) ->
  ofold (fun d j => a <- x j ;; e <- es j ;; pset nm d i j (fdiv a e)) (seq 0 nm) d = UB.
Proof.
  intros Hk HX HU HE.
  assert (G : forall n s d, s + n = nm -> s <= k -> (forall j, j < nm -> i * nm + j < length d) ->
     ofold (fun d j => a <- x j ;; e <- es j ;; pset nm d i j (fdiv a e)) (seq s n) d = UB).
  { induction n as [|n IH]; intros s d Hs Hsk Hd; [lia|]. cbn [seq ofold].
    destruct (Nat.eq_dec s k) as [->|N]; [rewrite HU; reflexivity|].
    destruct (HX s) as (a & Ea); [lia|]. rewrite Ea, HE by lia. cbn [obind]. unfold pset, oset.
    pose proof (Hd s). destruct (Nat.ltb_spec (i * nm + s) (length d)); [|lia]. cbn [obind].
    apply IH; [lia|lia|]. intros j Hj. rewrite upd_length. apply Hd. exact Hj. }
  intros d Hd. apply G; [lia|lia|exact Hd].
Qed.
End Pack.

Section NN.
Context {F : Type} (zero : F) (fadd fsub fmul fdiv : F -> F -> F) (fabs : F -> F) (feqb : F -> F -> bool).
Context (np : nat) (alpha : img F) (A : nat -> nat -> F) (beta : list F) (B : nat -> F).
Context (Hr : nr alpha = np) (Hc : nc alpha = np) (RA : rep np np (pix alpha) A) (RB : repv np beta B).

Definition avf (V : nat -> F) (i : nat) : F := adds fadd (fun j => fmul (A i j) (V j)) (seq 0 np) zero.
Definition newf (V : nat -> F) (i : nat) : F := fmul (V i) (fdiv (B i) (avf V i)).
Lemma nn_update_ok ps V ta tb i : repv np ps (fun j => Some (V j)) -> i < np -> feqb (avf V i) zero = false ->
  exists ps' ta' tb', nn_update zero fadd fsub fmul fdiv fabs feqb alpha beta (ps, ta, tb) i = Ok (ps', ta', tb') /\
    repv np ps' (fun j => Some (upd1 V i (newf V i) j)) /\
    (forall a t, ta = Some a -> tb = Some t ->
       ta' = Some (fadd a (fabs (fsub (newf V i) (V i)))) /\ tb' = Some (fadd t (V i))).
Proof.
  intros Rp Hi Hz. unfold nn_update. rewrite Hr.
  destruct (ofold_seq_inv (fun k av => av = Some (adds fadd (fun j => fmul (A i j) (V j)) (seq 0 k) zero))
    (fun av m1 => a <- pget alpha i m1 ;; p <- oget ps m1 ;; Ok (lift2 fadd av (lift2 fmul (Some a) p))) np 0 (Some zero))
    as (av & E & Hav).
  - reflexivity.
  - intros k av Hk ->. unfold pget. rewrite Hc. fold (at2 np (pix alpha) i k). rewrite (rep_get _ _ _ _ _ _ RA) by lia.
    rewrite (repv_get _ _ _ _ Rp) by lia. cbn [obind lift2]. eexists. split; [reflexivity|].
    rewrite adds_snoc. reflexivity.
  - rewrite E. cbn [obind]. rewrite (repv_get _ _ _ _ Rp Hi), (repv_get _ _ _ _ RB Hi). cbn [obind].
    rewrite Hav. cbn [Nat.add]. fold (avf V i). cbn [ndiv]. rewrite Hz. cbn [lift2]. fold (newf V i).
    destruct (repv_set np ps _ i (Some (newf V i)) Rp Hi) as (ps' & E' & R'). rewrite E'. cbn [obind].
    eexists ps', _, _. split; [reflexivity|]. split.
    + eapply repv_ext; [exact R'|]. intros j Hj. unfold upd1. destruct (j =? i); reflexivity.
    + intros a t -> ->. split; reflexivity.
Qed.
End NN.

(* what the steps of a fit leave as it was *)
Lemma fit_nochi2_keeps {F} zero fadd fmul fdiv (b : batch (F:=F)) y b' : fit_nochi2 zero fadd fmul fdiv b y = Ok b' ->
  chi2 (b_fr b') = chi2 (b_fr b).
Proof.
  unfold fit_nochi2. destruct (check _); cbn [obind]; try discriminate.
  destruct (negb _); [intros [= <-]; reflexivity|].
  destruct (arg_div _ _ _); cbn [obind]; try discriminate.
  destruct (ofold _ _ _); cbn [obind]; try discriminate.
  destruct (mat_vec _ _ _ _ _); cbn [obind]; try discriminate. intros [= <-]. reflexivity.
Qed.
Lemma update_chi2_keeps {F} zero fadd fsub fmul fdiv (b : batch (F:=F)) y b' : update_chi2 zero fadd fsub fmul fdiv b y = Ok b' ->
  success (b_fr b') = success (b_fr b) /\ params (b_fr b') = params (b_fr b) /\ errors (b_fr b') = errors (b_fr b) /\
  cov (b_fr b') = cov (b_fr b).
Proof.
  unfold update_chi2. destruct (make_model _ _ _ _ _); cbn [obind]; try discriminate.
  destruct (arg_div _ _ _); cbn [obind]; try discriminate.
  destruct (total_sqr _ _ _ _ _ _); cbn [obind]; try discriminate. intros [= <-]. cbn. tauto.
Qed.
Lemma fit_steps {F} zero fadd fsub fmul fdiv (b : batch (F:=F)) y b' : fit zero fadd fsub fmul fdiv b y = Ok b' ->
  exists b1, fit_nochi2 zero fadd fmul fdiv b y = Ok b1 /\ update_chi2 zero fadd fsub fmul fdiv b1 y = Ok b'.
Proof. unfold fit. destruct (fit_nochi2 _ _ _ _ _ _) as [b1| | | |]; cbn [obind]; try discriminate. eauto. Qed.
Lemma nn_success_false {F} (zero one : F) fadd fsub fmul fdiv fabs flt feqb k tol (y ye : arg F) ts r :
  linfit_nn zero one fadd fsub fmul fdiv fabs flt feqb k tol y ye ts = Ok r -> n_success r = false.
Proof.
  unfold linfit_nn, linfit_do_nn. destruct (linfit_cache _ _ _ _ _); cbn [obind]; try discriminate.
  destruct (arg_div _ _ _); cbn [obind]; try discriminate.
  destruct (make_alpha_beta _ _ _ _ _) as [[al be]| | | |]; cbn [obind]; try discriminate.
  destruct (nn_loop _ _ _ _ _ _ _ _ _ _ _ _ _ _) as [[ps t]| | | |]; cbn [obind]; try discriminate.
  destruct (make_chi2 _ _ _ _ _ _ _); cbn [obind]; try discriminate. intros [= <-]. cbn. destruct (_ =? _)%N; reflexivity.
Qed.
