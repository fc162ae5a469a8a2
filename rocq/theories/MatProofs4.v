(* Lemmas on matrices, part 4: the loops of the Cholesky decomposition, of the products and of the
   special matrices. *)
From Coq Require Import NArith ZifyBool ZifyNat.
From Verif Require Import Base IndexModel IndexProofs VecModel VecProofs ImageModel ImageSpec ImageProofs MatModel MatProofs.

Section C.
Context {F : Type}.
Implicit Types (d : list F) (A W M : nat -> nat -> F).
Context (zero one : F) (fadd fsub fmul fdiv : F -> F -> F) (fle : F -> F -> bool) (fsqrt : F -> F).

Lemma upd2_same W i j a : upd2 W i j a i j = a.
Proof. unfold upd2. rewrite !Nat.eqb_refl. reflexivity. Qed.
Lemma upd2_other W i j a i' j' : i' <> i \/ j' <> j -> upd2 W i j a i' j' = W i' j'.
Proof. intros H. unfold upd2. destruct (Nat.eqb_spec i' i), (Nat.eqb_spec j' j); cbn [andb]; try reflexivity. lia. Qed.

(* ---- decomposition ---- *)
Definition adds (f : nat -> F) (l : list nat) (a : F) : F := fold_left (fun s k => fadd s (f k)) l a.
Lemma adds_ext f g : forall l a, (forall i, In i l -> f i = g i) -> adds f l a = adds g l a.
Proof.
  induction l as [|i l IH]; intros a H; [reflexivity|]. unfold adds in *. cbn [fold_left].
  rewrite H by (left; reflexivity). apply IH. intros j Hj. apply H. right; exact Hj.
Qed.
Definition dot W (i j : nat) : F := adds (fun k => fmul (W i k) (W j k)) (seq 0 j) zero.
Definition elem_ok A W (i j : nat) : Prop :=
  (i < j -> W i j = zero) /\
  (j < i -> W i j = fdiv (fsub (A i j) (dot W i j)) (W j j)) /\
  (i = j -> fle (fsub (A i i) (dot W i i)) zero = false /\ W i i = fsqrt (fsub (A i i) (dot W i i))).
Definition bef (i0 j0 i j : nat) : Prop := i < i0 \/ (i = i0 /\ j < j0).
Definition chol_inv n A (i0 j0 : nat) W : Prop :=
  (forall i j, i < n -> j < n -> bef i0 j0 i j -> elem_ok A W i j) /\
  (forall i j, i < n -> j < n -> ~ bef i0 j0 i j -> W i j = A i j).
Definition chol_failed n A : Prop :=
  exists i W, i < n /\ chol_inv n A i i W /\ fle (fsub (A i i) (dot W i i)) zero = true.

Lemma dot_ext W W' i j : (forall k, k < j -> W i k = W' i k /\ W j k = W' j k) -> dot W i j = dot W' i j.
Proof.
  intros H. unfold dot. apply adds_ext. intros k Hk. apply in_seq in Hk. destruct (H k) as (-> & ->); [lia|reflexivity].
Qed.
Lemma elem_stable A W i0 j0 a i j : bef i0 j0 i j -> elem_ok A W i j -> elem_ok A (upd2 W i0 j0 a) i j.
Proof.
  intros B (H1 & H2 & H3). unfold bef in B. split; [|split].
  - intros Hij. rewrite upd2_other by lia. auto.
  - intros Hij. rewrite !upd2_other by lia. rewrite H2 by exact Hij. do 2 f_equal. apply dot_ext.
    intros k Hk. rewrite !upd2_other by lia. auto.
  - intros Hij. assert (E : dot (upd2 W i0 j0 a) i i = dot W i i).
    { apply dot_ext. intros k Hk. rewrite !upd2_other by lia. auto. }
    rewrite E, upd2_other by lia. auto.
Qed.
Lemma chol_inv_step n A W i j a : i < n -> j < n -> chol_inv n A i j W ->
  elem_ok A (upd2 W i j a) i j -> chol_inv n A i (j + 1) (upd2 W i j a).
Proof.
  intros Hi Hj (H1 & H2) He. split.
  - intros i' j' Hi' Hj' B. destruct (Nat.eq_dec i' i) as [->|Hn]; [destruct (Nat.eq_dec j' j) as [->|Hn]|].
    + exact He.
    + assert (bef i j i j') by (unfold bef in *; lia). apply elem_stable; auto.
    + assert (bef i j i' j') by (unfold bef in *; lia). apply elem_stable; auto.
  - intros i' j' Hi' Hj' B. rewrite upd2_other by (unfold bef in *; lia). apply H2; auto. unfold bef in *; lia.
Qed.

Lemma dot_rows_ok n d W i j : rep n n d W -> i < n -> j < n -> dot_rows zero fadd fmul n d i j = Ok (dot W i j).
Proof.
  intros R Hi Hj. unfold dot_rows, dot, adds.
  assert (G : forall l s, (forall k, In k l -> k < n) ->
    ofold (fun s k => x <- at2 n d i k ;; y <- at2 n d j k ;; Ok (fadd s (fmul x y))) l s
      = Ok (fold_left (fun s k => fadd s (fmul (W i k) (W j k))) l s)).
  { induction l as [|k l IH]; intros s Hl; [reflexivity|]. cbn [ofold fold_left].
    rewrite (rep_get n n d W i k R) by auto using in_eq. cbn [obind].
    rewrite (rep_get n n d W j k R) by auto using in_eq. cbn [obind]. apply IH. intros; apply Hl; right; assumption. }
  apply G. intros k Hk. apply in_seq in Hk. lia.
Qed.

Definition row_state n A (i j : nat) (s : option (list F)) : Prop :=
  match s with Some d => exists W, rep n n d W /\ chol_inv n A i j W | None => chol_failed n A end.

Lemma chol_element_ok n A i j s : i < n -> j <= i -> row_state n A i j s ->
  exists s', chol_element zero fadd fsub fmul fdiv fle fsqrt n i s j = Ok s' /\ row_state n A i (j + 1) s'.
Proof.
  intros Hi Hj Hs. destruct s as [d|]; cbn [chol_element]; [|exists None; split; [reflexivity|exact Hs]].
  destruct Hs as (W & R & Hinv).
  rewrite (dot_rows_ok n d W i j R) by lia. cbn [obind].
  pose proof Hinv as (I1 & I2).
  destruct (Nat.eqb_spec i j) as [<-|Hne].
  - rewrite (rep_get n n d W i i R) by lia. cbn [obind]. cbv zeta.
    assert (Ea : W i i = A i i) by (apply I2; unfold bef; lia). rewrite Ea.
    destruct (fle (fsub (A i i) (dot W i i)) zero) eqn:Ef.
    + exists None. split; [reflexivity|]. exists i, W. auto.
    + destruct (rep_set n n d W i i (fsqrt (fsub (A i i) (dot W i i))) R) as (d' & E & R'); [lia..|].
      rewrite E. cbn [obind]. eexists. split; [reflexivity|]. eexists. split; [exact R'|].
      apply chol_inv_step; [lia..|exact Hinv|]. split; [lia|]. split; [lia|]. intros _.
      assert (Ed : dot (upd2 W i i (fsqrt (fsub (A i i) (dot W i i)))) i i = dot W i i).
      { apply dot_ext. intros k Hk. rewrite !upd2_other by lia. auto. }
      rewrite Ed, upd2_same. auto.
  - rewrite (rep_get n n d W i j R) by lia. cbn [obind].
    rewrite (rep_get n n d W j j R) by lia. cbn [obind].
    assert (Ea : W i j = A i j) by (apply I2; unfold bef; lia). rewrite Ea.
    destruct (rep_set n n d W i j (fdiv (fsub (A i j) (dot W i j)) (W j j)) R) as (d' & E & R'); [lia..|].
    rewrite E. cbn [obind]. eexists. split; [reflexivity|]. eexists. split; [exact R'|].
    apply chol_inv_step; [lia..|exact Hinv|]. split; [lia|]. split; [|lia]. intros _.
    rewrite upd2_same, upd2_other by lia. do 2 f_equal. apply dot_ext. intros k Hk. rewrite !upd2_other by lia. auto.
Qed.

Lemma chol_row_ok n A i s : i < n -> row_state n A i 0 s ->
  exists s', chol_row zero fadd fsub fmul fdiv fle fsqrt n s i = Ok s' /\ row_state n A (i + 1) 0 s'.
Proof.
  intros Hi Hs. unfold chol_row.
  destruct (ofold_seq_inv (fun j s => row_state n A i j s) (chol_element zero fadd fsub fmul fdiv fle fsqrt n i)
    (i + 1) 0 s Hs) as (s1 & E & H1).
  { intros j s' Hj Hs'. apply chol_element_ok; auto; lia. }
  rewrite E. cbn [obind Nat.add] in *. destruct s1 as [d|]; [|exists None; split; [reflexivity|exact H1]].
  destruct H1 as (W & R & Hinv).
  destruct (ofold_seq_inv (fun j d => exists W, rep n n d W /\ chol_inv n A i j W)
    (fun d j => pset n d i j zero) (n - (i + 1)) (i + 1) d) as (d' & E' & W' & R' & Hinv').
  - exists W. auto.
  - intros j d0 Hj (W0 & R0 & Hinv0).
    destruct (rep_set n n d0 W0 i j zero R0) as (d1 & E1 & R1); [lia..|].
    exists d1. split; [exact E1|]. eexists. split; [exact R1|].
    apply chol_inv_step; [lia..|exact Hinv0|]. split; [|split; lia]. intros _. apply upd2_same.
  - rewrite E'. cbn [obind]. eexists. split; [reflexivity|]. exists W'. split; [exact R'|].
    replace (i + 1 + (n - (i + 1))) with n in Hinv' by lia. destruct Hinv' as (I1 & I2). split.
    + intros i' j' Hi' Hj' B. apply I1; auto. unfold bef in *. lia.
    + intros i' j' Hi' Hj' B. apply I2; auto. unfold bef in *. lia.
Qed.

Lemma chol_decompose_ok n (v : img F) A : nr v = n -> nc v = n -> rep n n (pix v) A ->
  (exists d W, chol_decompose zero fadd fsub fmul fdiv fle fsqrt v = Ok (Some (Img n n d)) /\ rep n n d W /\
     forall i j, i < n -> j < n -> elem_ok A W i j) \/
  (chol_decompose zero fadd fsub fmul fdiv fle fsqrt v = Ok None /\ chol_failed n A).
Proof.
  intros Hr Hc R. unfold chol_decompose. rewrite Hr, Hc, Nat.eqb_refl. cbn [check obind]. cbv zeta.
  destruct (ofold_seq_inv (fun i s => row_state n A i 0 s) (chol_row zero fadd fsub fmul fdiv fle fsqrt n)
    n 0 (Some (pix v))) as (s & E & H).
  - exists A. split; [exact R|]. split; [|auto]. intros i j _ _ B. unfold bef in B. lia.
  - intros i s Hi Hs. apply chol_row_ok; auto; lia.
  - rewrite E. cbn [obind Nat.add] in *. destruct s as [d|].
    + left. destruct H as (W & R' & H1 & _). exists d, W. split; [reflexivity|]. split; [exact R'|].
      intros i j Hi Hj. apply H1; auto. unfold bef. lia.
    + right. split; [reflexivity|exact H].
Qed.

(* ---- triangular systems, in place ---- *)
Lemma substitute_forward_ok n (l : img F) M x X : nr l = n -> nc l = n -> rep n n (pix l) M -> repv n x X ->
  exists r Y, substitute_forward fsub fmul fdiv l x = Ok r /\ repv n r Y /\ fwd_solved fsub fmul fdiv n M X Y.
Proof.
  intros Hr Hc R (Lx & Hx). unfold substitute_forward. rewrite Hr, Lx, Nat.eqb_refl, Hc. cbn [check obind].
  destruct (ofold_seq_inv (fun k r => exists Y, repv n r Y /\
      (forall i, i < k -> Y i = row_solved fsub fmul fdiv M Y (X i) i) /\ (forall i, k <= i < n -> Y i = X i))
    (fun x k => forward_step fsub fmul fdiv n (pix l) x k) n 0 x) as (r & E & Y & RY & HY & _).
  - exists X. split; [split; assumption|]. split; [lia|reflexivity].
  - intros k r Hk (Y & RY & H1 & H2).
    destruct (forward_step_ok fsub fmul fdiv n (pix l) r M Y k R ltac:(lia) RY) as (r' & E & R').
    exists r'. split; [exact E|]. eexists. split; [exact R'|]. split.
    + intros i Hi. destruct (Nat.eq_dec i k) as [->|Hne].
      * rewrite upd1_same, (H2 k) by lia. apply row_solved_ext. intros j Hj. rewrite !upd1_other by lia. reflexivity.
      * rewrite !upd1_other by lia. rewrite H1 by lia. apply row_solved_ext.
        intros j Hj. rewrite !upd1_other by lia. reflexivity.
    + intros i Hi. rewrite upd1_other by lia. apply H2. lia.
  - exists r, Y. split; [exact E|]. split; [exact RY|]. intros k Hk. apply HY. lia.
Qed.

Lemma sub_col_ok n (l : img F) M k : nc l = n -> rep n n (pix l) M -> k < n -> forall is_ r V, repv n r V ->
  (forall i, In i is_ -> i < n /\ i <> k) ->
  exists r', ofold (fun x i => a <- oget x k ;; b <- oget x i ;; c <- pget l i k ;;
                              oset x k (fsub a (fmul b c))) is_ r = Ok r' /\
    repv n r' (upd1 V k (subs fsub (V k) (fun i => fmul (V i) (M i k)) is_)).
Proof.
  intros Hc R Hk. induction is_ as [|i l' IH]; intros r V Hr Hl.
  - exists r. split; [reflexivity|]. eapply repv_ext; [exact Hr|]. intros i Hi. unfold upd1, subs. cbn [fold_left].
    destruct (Nat.eqb_spec i k); congruence.
  - destruct (Hl i (or_introl eq_refl)) as (Hi & Hik).
    cbn [ofold]. rewrite (repv_get n r V k Hr Hk). cbn [obind].
    rewrite (repv_get n r V i Hr Hi). cbn [obind].
    assert (Eg : pget l i k = Ok (M i k)) by (unfold pget; rewrite Hc; apply (rep_get n n _ M i k R Hi Hk)).
    rewrite Eg. cbn [obind].
    destruct (repv_set n r V k (fsub (V k) (fmul (V i) (M i k))) Hr Hk) as (r1 & E1 & R1).
    rewrite E1. cbn [obind].
    destruct (IH r1 _ R1) as (r2 & E2 & R2); [intros; apply Hl; right; assumption|].
    exists r2. split; [exact E2|]. eapply repv_ext; [exact R2|]. intros j Hj.
    destruct (Nat.eq_dec j k) as [->|Hjk].
    + rewrite !upd1_same. unfold subs at 2. cbn [fold_left]. apply subs_ext. intros i0 Hi0.
      rewrite upd1_other by (apply (Hl i0); right; exact Hi0). reflexivity.
    + rewrite !upd1_other by exact Hjk. reflexivity.
Qed.

Definition col_solved n M (Z : nat -> F) (y : F) (k : nat) : F :=
  fdiv (subs fsub y (fun i => fmul (Z i) (M i k)) (seq (k + 1) (n - (k + 1)))) (M k k).
Definition bwd_solved n M (Y Z : nat -> F) : Prop := forall k, k < n -> Z k = col_solved n M Z (Y k) k.
Lemma col_solved_ext n M Z Z' y k : (forall i, k < i -> Z i = Z' i) -> col_solved n M Z y k = col_solved n M Z' y k.
Proof.
  intros H. unfold col_solved. f_equal. apply subs_ext. intros i Hi. apply in_seq in Hi. rewrite H by lia. reflexivity.
Qed.

Lemma substitute_backward_ok n (l : img F) M x X : nr l = n -> nc l = n -> rep n n (pix l) M -> repv n x X ->
  exists r Z, substitute_backward fsub fmul fdiv l x = Ok r /\ repv n r Z /\ bwd_solved n M X Z.
Proof.
  intros Hr Hc R (Lx & Hx). unfold substitute_backward. rewrite Hr, Lx, Nat.eqb_refl. cbn [check obind]. cbv zeta.
  match goal with |- context [ofold ?f (rev (seq 0 n)) _] =>
    destruct (ofold_rev_inv (fun k r => exists Z, repv n r Z /\
      (forall i, k <= i < n -> Z i = col_solved n M Z (X i) i) /\ (forall i, i < k -> i < n -> Z i = X i))
      f n x) as (r & E & Z & RZ & HZ & _) end.
  - exists X. split; [split; assumption|]. split; [lia|reflexivity].
  - intros k r Hk (Z & RZ & H1 & H2).
    destruct (sub_col_ok n l M k Hc R Hk (seq (k + 1) (n - (k + 1))) r Z RZ) as (r1 & E1 & R1).
    { intros i Hi. apply in_seq in Hi. lia. }
    rewrite E1. cbn [obind]. rewrite (repv_get n r1 _ k R1 Hk), upd1_same. cbn [obind].
    assert (Eg : pget l k k = Ok (M k k)) by (unfold pget; rewrite Hc; apply (rep_get n n _ M k k R Hk Hk)).
    rewrite Eg. cbn [obind].
    match goal with |- context [oset r1 k ?a] => destruct (repv_set n r1 _ k a R1 Hk) as (r2 & E2 & R2) end.
    exists r2. split; [exact E2|]. eexists. split; [exact R2|]. split.
    + intros i Hi. destruct (Nat.eq_dec i k) as [->|Hne].
      * rewrite upd1_same. rewrite <- (H2 k) by lia. unfold col_solved. f_equal. apply subs_ext.
        intros j Hj. apply in_seq in Hj. rewrite !upd1_other by lia. reflexivity.
      * rewrite !upd1_other by lia. rewrite H1 by lia. apply col_solved_ext.
        intros j Hj. rewrite !upd1_other by lia. reflexivity.
    + intros i Hi Hn. rewrite !upd1_other by lia. apply H2; lia.
  - exists r, Z. split; [exact E|]. split; [exact RZ|]. intros k Hk. apply HZ. lia.
Qed.

Lemma chol_solve_ok n (l : img F) M x X : nr l = n -> nc l = n -> rep n n (pix l) M -> repv n x X ->
  exists r Y Z, chol_solve fsub fmul fdiv l x = Ok r /\ repv n r Z /\
    fwd_solved fsub fmul fdiv n M X Y /\ bwd_solved n M Y Z.
Proof.
  intros Hr Hc R Hx. unfold chol_solve. pose proof Hx as (Lx & _). rewrite Hr, Lx, Nat.eqb_refl. cbn [check obind].
  destruct (substitute_forward_ok n l M x X Hr Hc R Hx) as (r1 & Y & E1 & R1 & HY). rewrite E1. cbn [obind].
  destruct (substitute_backward_ok n l M r1 Y Hr Hc R R1) as (r2 & Z & E2 & R2 & HZ).
  exists r2, Y, Z. auto.
Qed.

Lemma store_row_ok n inv V x X c : rep n n inv V -> repv n x X -> c < n ->
  exists inv' x', store_row zero n inv x c = Ok (inv', x') /\ repv n x' (fun _ => zero) /\
    rep n n inv' (fun i j => if i =? c then X j else V i j).
Proof.
  intros RV Rx Hc. unfold store_row. pose proof Rx as (Lx & _). rewrite Lx.
  match goal with |- context [ofold ?f (seq 0 n) _] =>
    destruct (ofold_seq_inv (fun k '(inv, x) => repv n x (fun i => if i <? k then zero else X i) /\
      rep n n inv (fun i j => if (i =? c) && (j <? k) then X j else V i j)) f n 0 (inv, x))
      as ((inv' & x') & E & Rx' & RV') end.
  - split.
    + eapply repv_ext; [exact Rx|]. reflexivity.
    + eapply rep_ext; [exact RV|]. intros i j _ _. cbn. rewrite andb_false_r. reflexivity.
  - intros k (inv0 & x0) Hk (R1 & R2). rewrite (repv_get n x0 _ k R1) by lia. rewrite Nat.ltb_irrefl. cbn [obind].
    destruct (rep_set n n inv0 _ c k (X k) R2) as (inv1 & E1 & R3); [lia..|]. rewrite E1. cbn [obind].
    destruct (repv_set n x0 _ k zero R1) as (x1 & E2 & R4); [lia|]. rewrite E2. cbn [obind].
    eexists. split; [reflexivity|]. split.
    + eapply repv_ext; [exact R4|]. intros i Hi. unfold upd1.
      destruct (Nat.eqb_spec i k), (Nat.ltb_spec i k), (Nat.ltb_spec i (k + 1)); try lia; reflexivity.
    + eapply rep_ext; [exact R3|]. intros i j Hi Hj. unfold upd2.
      destruct (Nat.eqb_spec i c), (Nat.eqb_spec j k), (Nat.ltb_spec j k), (Nat.ltb_spec j (k + 1)); cbn [andb]; subst; try lia; reflexivity.
  - exists inv', x'. split; [exact E|]. split.
    + eapply repv_ext; [exact Rx'|]. intros i Hi. cbn [Nat.add]. destruct (Nat.ltb_spec i n); [reflexivity|lia].
    + eapply rep_ext; [exact RV'|]. intros i j Hi Hj. cbn [Nat.add]. destruct (Nat.ltb_spec j n); [|lia].
      rewrite andb_true_r. reflexivity.
Qed.

Definition unit_vec (c : nat) : nat -> F := fun k => if k =? c then one else zero.

(* the loops of invert and lower_inverse, for any way to solve *)
Lemma inverse_rows_ok n (P : (nat -> F) -> (nat -> F) -> Prop) (solve : list F -> outcome (list F)) :
  fits n n ->
  (forall x X, repv n x X -> exists r Z, solve x = Ok r /\ repv n r Z /\ P X Z) ->
  (forall X X' Z, P X Z -> (forall k, k < n -> X k = X' k) -> P X' Z) ->
  (forall X Z Z', P X Z -> (forall k, k < n -> Z k = Z' k) -> P X Z') ->
  exists inv V, ('(inv, _) <- ofold (fun '(inv, x) c =>
      x <- oset x c one ;; x <- solve x ;; store_row zero n inv x c) (seq 0 n) (repeat zero (n * n), repeat zero n) ;;
    Ok (Img n n inv)) = Ok (Img n n inv) /\ rep n n inv V /\
    forall c, c < n -> P (unit_vec c) (fun j => V c j).
Proof.
  intros Hf Hs Px Pz.
  match goal with |- context [ofold ?f (seq 0 n) _] =>
    destruct (ofold_seq_inv (fun c0 '(inv, x) => repv n x (fun _ => zero) /\ exists V, rep n n inv V /\
      forall c, c < c0 -> P (unit_vec c) (fun j => V c j)) f n 0 (repeat zero (n * n), repeat zero n))
      as ((inv & x) & E & _ & V & RV & HV) end.
  - split; [apply repv_repeat|]. exists (fun _ _ => zero). split; [apply rep_repeat|]. lia.
  - intros c (inv & x) Hc (Rx & V & RV & HV).
    destruct (repv_set n x _ c one Rx) as (x1 & E1 & R1); [lia|]. rewrite E1. cbn [obind].
    destruct (Hs x1 _ R1) as (x2 & Z & E2 & R2 & HP). rewrite E2. cbn [obind].
    destruct (store_row_ok n inv V x2 Z c RV R2) as (inv' & x' & E3 & R3 & RV3); [lia|].
    exists (inv', x'). split; [exact E3|]. split; [exact R3|]. eexists. split; [exact RV3|].
    intros c' Hc'. destruct (Nat.eq_dec c' c) as [->|Hne].
    + eapply Px; [eapply Pz; [exact HP|]|].
      * intros k Hk. cbv beta. rewrite Nat.eqb_refl. reflexivity.
      * intros k Hk. unfold upd1, unit_vec. reflexivity.
    + eapply Pz; [apply HV; lia|]. intros k Hk. cbv beta. destruct (Nat.eqb_spec c' c); [lia|reflexivity].
  - exists inv, V. rewrite E. cbn [obind]. split; [reflexivity|]. split; [exact RV|]. intros c Hc. apply HV. lia.
Qed.

Lemma fwd_solved_ext n M X X' Y Y' : fwd_solved fsub fmul fdiv n M X Y ->
  (forall k, k < n -> X k = X' k) -> (forall k, k < n -> Y k = Y' k) -> fwd_solved fsub fmul fdiv n M X' Y'.
Proof.
  intros H HX HY k Hk. rewrite <- HY, <- HX by exact Hk. rewrite (H k Hk). apply row_solved_ext.
  intros i Hi. apply HY. lia.
Qed.
Lemma bwd_solved_ext n M X X' Y Y' : bwd_solved n M X Y ->
  (forall k, k < n -> X k = X' k) -> (forall k, k < n -> Y k = Y' k) -> bwd_solved n M X' Y'.
Proof.
  intros H HX HY k Hk. rewrite <- HY, <- HX by exact Hk. rewrite (H k Hk). unfold col_solved. f_equal. apply subs_ext.
  intros i Hi. apply in_seq in Hi. rewrite HY by lia. reflexivity.
Qed.

Lemma chol_invert_ok n (l : img F) M : fits n n -> nr l = n -> nc l = n -> rep n n (pix l) M ->
  exists inv V, chol_invert zero one fsub fmul fdiv l = Ok (Img n n inv) /\ rep n n inv V /\
    forall c, c < n -> exists Y, fwd_solved fsub fmul fdiv n M (unit_vec c) Y /\ bwd_solved n M Y (fun j => V c j).
Proof.
  intros Hf Hr Hc R. unfold chol_invert. rewrite Hr, Hc, filled_ok by exact Hf. cbn [obind pix]. cbv zeta.
  destruct (inverse_rows_ok n (fun X Z => exists Y, fwd_solved fsub fmul fdiv n M X Y /\ bwd_solved n M Y Z)
    (fun x => x <- substitute_forward fsub fmul fdiv l x ;; substitute_backward fsub fmul fdiv l x) Hf)
    as (inv & V & E & RV & HV).
  - intros x X Rx. destruct (substitute_forward_ok n l M x X Hr Hc R Rx) as (r1 & Y & E1 & R1 & HY). rewrite E1. cbn [obind].
    destruct (substitute_backward_ok n l M r1 Y Hr Hc R R1) as (r2 & Z & E2 & R2 & HZ). eauto 8.
  - intros X X' Z (Y & H1 & H2) HX. exists Y. split; [eapply fwd_solved_ext; eauto|exact H2].
  - intros X Z Z' (Y & H1 & H2) HX. exists Y. split; [exact H1|eapply bwd_solved_ext; eauto].
  - exists inv, V. split; [|auto]. etransitivity; [|exact E]. f_equal. clear.
    assert (G : forall l0 s,
      ofold (fun '(inv, x) c => x <- oset x c one ;; x <- substitute_forward fsub fmul fdiv l x ;;
               x <- substitute_backward fsub fmul fdiv l x ;; store_row zero n inv x c) l0 s =
      ofold (fun '(inv, x) c => x <- oset x c one ;;
               x <- (x <- substitute_forward fsub fmul fdiv l x ;; substitute_backward fsub fmul fdiv l x) ;;
               store_row zero n inv x c) l0 s).
    { induction l0 as [|c l0 IH]; intros (inv & x); [reflexivity|]. cbn [ofold].
      assert (E : (x <- oset x c one ;; x <- substitute_forward fsub fmul fdiv l x ;;
               x <- substitute_backward fsub fmul fdiv l x ;; store_row zero n inv x c) =
               (x <- oset x c one ;;
               x <- (x <- substitute_forward fsub fmul fdiv l x ;; substitute_backward fsub fmul fdiv l x) ;;
               store_row zero n inv x c)).
      { destruct (oset x c one) as [y| | | |]; cbn [obind]; try reflexivity.
        destruct (substitute_forward fsub fmul fdiv l y) as [y1| | | |]; cbn [obind]; reflexivity. }
      rewrite E. clear E. match goal with |- obind ?e _ = obind ?e _ => destruct e; cbn [obind]; auto end. }
    apply G.
Qed.

Lemma lower_inverse_ok n (l : img F) M : fits n n -> nr l = n -> nc l = n -> rep n n (pix l) M ->
  exists inv V, lower_inverse zero one fsub fmul fdiv l = Ok (Img n n inv) /\ rep n n inv V /\
    forall c, c < n -> bwd_solved n M (unit_vec c) (fun j => V c j).
Proof.
  intros Hf Hr Hc R. unfold lower_inverse. rewrite Hr, Hc, filled_ok by exact Hf. cbn [obind pix]. cbv zeta.
  destruct (inverse_rows_ok n (fun X Z => bwd_solved n M X Z)
    (fun x => substitute_backward fsub fmul fdiv l x) Hf) as (inv & V & E & RV & HV).
  - intros x X Rx. destruct (substitute_backward_ok n l M x X Hr Hc R Rx) as (r2 & Z & E2 & R2 & HZ). eauto 8.
  - intros X X' Z H1 HX. eapply bwd_solved_ext; eauto.
  - intros X Z Z' H1 HX. eapply bwd_solved_ext; eauto.
  - exists inv, V. auto.
Qed.

Lemma lower_determinant_ok n (l : img F) M : rep n n (pix l) M -> nr l = n -> nc l = n ->
  lower_determinant one fmul l = Ok (fold_left (fun a i => fmul a (M i i)) (seq 0 n) one).
Proof.
  intros R Hr Hc. unfold lower_determinant. rewrite Hr.
  assert (G : forall is_ a, (forall i, In i is_ -> i < n) ->
    ofold (fun a i => x <- pget l i i ;; Ok (fmul a x)) is_ a = Ok (fold_left (fun a i => fmul a (M i i)) is_ a)).
  { induction is_ as [|i is_ IH]; intros a Hl; [reflexivity|]. cbn [ofold fold_left]. unfold pget at 1. rewrite Hc.
    change (oget (pix l) (i * n + i)) with (at2 n (pix l) i i).
    rewrite (rep_get n n _ M i i R) by (apply Hl; left; reflexivity). cbn [obind].
    apply IH. intros j Hj. apply Hl. right; exact Hj. }
  apply G. intros i Hi. apply in_seq in Hi. lia.
Qed.

(* ---- symmetrize and products ---- *)
Lemma symmetrize_ok n (v : img F) A : nr v = n -> nc v = n -> rep n n (pix v) A ->
  exists d, inplace_symmetrize v = Ok (Img n n d) /\
    rep n n d (fun i j => if i <? j then A j i else A i j).
Proof.
  intros Hr Hc R. unfold inplace_symmetrize. rewrite Hr, Hc, Nat.eqb_refl. cbn [check obind]. cbv zeta.
  match goal with |- context [ofold ?f (seq 0 n) _] =>
    destruct (ofold_seq_inv (fun i0 d => rep n n d (fun i j => if (i <? j) && (i <? i0) then A j i else A i j))
      f n 0 (pix v)) as (d & E & R') end.
  - eapply rep_ext; [exact R|]. intros i j _ _. cbn. rewrite andb_false_r. reflexivity.
  - intros i0 d Hi0 R0.
    match goal with |- context [ofold ?f (seq (i0 + 1) _) _] =>
      destruct (ofold_seq_inv (fun j0 d => rep n n d (fun i j =>
          if (i <? j) && ((i <? i0) || ((i =? i0) && (j <? j0))) then A j i else A i j))
        f (n - (i0 + 1)) (i0 + 1) d) as (d' & E & R') end.
    + eapply rep_ext; [exact R0|]. intros i j _ _. cbv beta.
      destruct (Nat.ltb_spec i j), (Nat.ltb_spec i i0), (Nat.eqb_spec i i0), (Nat.ltb_spec j (i0 + 1)); cbn [andb orb]; try lia; reflexivity.
    + intros j d0 Hj R1. rewrite (rep_get n n d0 _ j i0 R1) by lia. cbn [obind].
      match goal with |- context [pset n d0 i0 j ?a] => destruct (rep_set n n d0 _ i0 j a R1) as (d1 & E1 & R2); [lia..|] end.
      exists d1. split; [exact E1|]. eapply rep_ext; [exact R2|]. intros i j' Hi Hj'. unfold upd2.
      destruct (Nat.ltb_spec j i0); [lia|]. 
      destruct (Nat.eqb_spec i i0), (Nat.eqb_spec j' j), (Nat.ltb_spec i j'), (Nat.ltb_spec i i0),
        (Nat.ltb_spec j' j), (Nat.ltb_spec j' (j + 1)), (Nat.eqb_spec j i0); cbn [andb orb]; subst; try lia; cbn [andb orb];
        rewrite ?andb_false_r; try reflexivity; 
        try (destruct (Nat.ltb_spec j i0); [lia|]; reflexivity).
    + exists d'. split; [exact E|]. eapply rep_ext; [exact R'|]. intros i j Hi Hj. cbv beta.
      destruct (Nat.ltb_spec i j), (Nat.ltb_spec i i0), (Nat.eqb_spec i i0), (Nat.ltb_spec i (i0 + 1)),
        (Nat.ltb_spec j (i0 + 1 + (n - (i0 + 1)))); cbn [andb orb]; try lia; reflexivity.
  - rewrite E. cbn [obind]. exists d. split; [reflexivity|]. eapply rep_ext; [exact R'|]. intros i j Hi Hj. cbv beta.
    cbn [Nat.add]. destruct (Nat.ltb_spec i n); [|lia]. rewrite andb_true_r. reflexivity.
Qed.

Lemma mat_mul_ok n m p (a b : img F) A B : fits n p -> nr a = n -> nc a = m -> nr b = m -> nc b = p ->
  rep n m (pix a) A -> rep m p (pix b) B ->
  exists d, mat_mul zero fadd fmul a b = Ok (Img n p d) /\
    rep n p d (fun i j => adds (fun k => fmul (A i k) (B k j)) (seq 0 m) zero).
Proof.
  intros Hf Ha1 Ha2 Hb1 Hb2 RA RB. unfold mat_mul. rewrite Ha1, Ha2, Hb1, Hb2, Nat.eqb_refl. cbn [check obind].
  rewrite filled_ok by exact Hf. cbn [obind pix nr nc]. rewrite !ofold_list_prod.
  set (T := fun i j k0 => adds (fun k => fmul (A i k) (B k j)) (seq 0 k0) zero).
  assert (TS : forall i j k, T i j (k + 1) = fadd (T i j k) (fmul (A i k) (B k j))).
  { intros i j k. unfold T, adds. rewrite seq_app, fold_left_app. reflexivity. }
  match goal with |- context [ofold ?f (seq 0 n) _] =>
    destruct (ofold_seq_inv (fun i0 d => rep n p d (fun i j => if i <? i0 then T i j m else zero))
      f n 0 (repeat zero (n * p))) as (d & E & R') end.
  - eapply rep_ext; [apply rep_repeat|]. reflexivity.
  - intros i0 d0 Hi0 R0.
    match goal with |- context [ofold ?f (seq 0 m) _] =>
      destruct (ofold_seq_inv (fun k0 d => rep n p d (fun i j =>
         if i <? i0 then T i j m else if i =? i0 then T i j k0 else zero))
        f m 0 d0) as (d1 & E1 & R1) end.
    + eapply rep_ext; [exact R0|]. intros i j _ _. cbv beta.
      destruct (Nat.ltb_spec i i0), (Nat.eqb_spec i i0); reflexivity.
    + intros k d1 Hk R1.
      match goal with |- context [ofold ?f (seq 0 p) _] =>
        destruct (ofold_seq_inv (fun j0 d => rep n p d (fun i j =>
           if i <? i0 then T i j m else if i =? i0 then (if j <? j0 then T i j (k + 1) else T i j k) else zero))
          f p 0 d1) as (d2 & E2 & R2) end.
      * eapply rep_ext; [exact R1|]. intros i j _ _. cbv beta. reflexivity.
      * intros j d2 Hj R2. rewrite (rep_get n m _ A i0 k RA) by lia. cbn [obind].
        rewrite (rep_get m p _ B k j RB) by lia. cbn [obind].
        rewrite (rep_get n p d2 _ i0 j R2) by lia. cbn [obind].
        match goal with |- context [pset p d2 i0 j ?a] => destruct (rep_set n p d2 _ i0 j a R2) as (d3 & E3 & R3); [lia..|] end.
        exists d3. split; [exact E3|]. eapply rep_ext; [exact R3|]. intros i j' Hi Hj'. unfold upd2.
        rewrite !Nat.ltb_irrefl, Nat.eqb_refl.
        destruct (Nat.eqb_spec i i0), (Nat.eqb_spec j' j), (Nat.ltb_spec i i0), (Nat.ltb_spec j' j),
          (Nat.ltb_spec j' (j + 1)); cbn [andb]; subst; try lia; rewrite ?TS; reflexivity.
      * exists d2. split; [exact E2|]. eapply rep_ext; [exact R2|]. intros i j Hi Hj. cbv beta. cbn [Nat.add].
        destruct (Nat.ltb_spec j p); [reflexivity|lia].
    + exists d1. split; [exact E1|]. eapply rep_ext; [exact R1|]. intros i j Hi Hj. cbv beta. cbn [Nat.add].
      destruct (Nat.ltb_spec i i0), (Nat.eqb_spec i i0), (Nat.ltb_spec i (i0 + 1)); try lia; reflexivity.
  - rewrite E. cbn [obind]. exists d. split; [reflexivity|]. eapply rep_ext; [exact R'|]. intros i j Hi Hj. cbv beta.
    cbn [Nat.add]. destruct (Nat.ltb_spec i n); [reflexivity|lia].
Qed.

Lemma mat_vec_ok n m (a : img F) b A B : nr a = n -> nc a = m -> rep n m (pix a) A -> repv m b B ->
  exists r, mat_vec zero fadd fmul a b = Ok r /\
    repv n r (fun i => adds (fun k => fmul (A i k) (B k)) (seq 0 m) zero).
Proof.
  intros Ha1 Ha2 RA RB. unfold mat_vec. pose proof RB as (Lb & _). rewrite Ha1, Ha2, Lb, Nat.eqb_refl. cbn [check obind].
  rewrite !ofold_list_prod.
  set (T := fun i k0 => adds (fun k => fmul (A i k) (B k)) (seq 0 k0) zero).
  assert (TS : forall i k, T i (k + 1) = fadd (T i k) (fmul (A i k) (B k))).
  { intros i k. unfold T, adds. rewrite seq_app, fold_left_app. reflexivity. }
  match goal with |- context [ofold ?f (seq 0 n) _] =>
    destruct (ofold_seq_inv (fun i0 d => repv n d (fun i => if i <? i0 then T i m else zero))
      f n 0 (repeat zero n)) as (d & E & R') end.
  - eapply repv_ext; [apply repv_repeat|]. reflexivity.
  - intros i0 d0 Hi0 R0.
    match goal with |- context [ofold ?f (seq 0 m) _] =>
      destruct (ofold_seq_inv (fun k0 d => repv n d (fun i =>
         if i <? i0 then T i m else if i =? i0 then T i k0 else zero))
        f m 0 d0) as (d1 & E1 & R1) end.
    + eapply repv_ext; [exact R0|]. intros i _. cbv beta.
      destruct (Nat.ltb_spec i i0), (Nat.eqb_spec i i0); reflexivity.
    + intros k d1 Hk R1. rewrite (rep_get n m _ A i0 k RA) by lia. cbn [obind].
      rewrite (repv_get m _ B k RB) by lia. cbn [obind]. rewrite (repv_get n d1 _ i0 R1) by lia. cbn [obind].
      match goal with |- context [oset d1 i0 ?a] => destruct (repv_set n d1 _ i0 a R1) as (d3 & E3 & R3); [lia..|] end.
      exists d3. split; [exact E3|]. eapply repv_ext; [exact R3|]. intros i Hi. unfold upd1.
      rewrite !Nat.ltb_irrefl, Nat.eqb_refl.
      destruct (Nat.eqb_spec i i0), (Nat.ltb_spec i i0); subst; try lia; rewrite ?TS; reflexivity.
    + exists d1. split; [exact E1|]. eapply repv_ext; [exact R1|]. intros i Hi. cbv beta. cbn [Nat.add].
      destruct (Nat.ltb_spec i i0), (Nat.eqb_spec i i0), (Nat.ltb_spec i (i0 + 1)); try lia; reflexivity.
  - exists d. split; [exact E|]. eapply repv_ext; [exact R'|]. intros i Hi. cbv beta.
    cbn [Nat.add]. destruct (Nat.ltb_spec i n); [reflexivity|lia].
Qed.

Lemma vec_mat_ok n m a (b : img F) (A : nat -> F) B : nr b = n -> nc b = m -> repv n a A -> rep n m (pix b) B ->
  exists r, vec_mat zero fadd fmul a b = Ok r /\
    repv m r (fun i => adds (fun k => fmul (A k) (B k i)) (seq 0 n) zero).
Proof.
  intros Hb1 Hb2 RA RB. unfold vec_mat. pose proof RA as (La & _). rewrite Hb1, Hb2, La, Nat.eqb_refl. cbn [check obind].
  rewrite !ofold_list_prod.
  set (T := fun i k0 => adds (fun k => fmul (A k) (B k i)) (seq 0 k0) zero).
  assert (TS : forall i k, T i (k + 1) = fadd (T i k) (fmul (A k) (B k i))).
  { intros i k. unfold T, adds. rewrite seq_app, fold_left_app. reflexivity. }
  match goal with |- context [ofold ?f (seq 0 n) _] =>
    destruct (ofold_seq_inv (fun k0 d => repv m d (fun i => T i k0)) f n 0 (repeat zero m)) as (d & E & R') end.
  - eapply repv_ext; [apply repv_repeat|]. reflexivity.
  - intros k d0 Hk R0.
    match goal with |- context [ofold ?f (seq 0 m) _] =>
      destruct (ofold_seq_inv (fun i0 d => repv m d (fun i => if i <? i0 then T i (k + 1) else T i k))
        f m 0 d0) as (d1 & E1 & R1) end.
    + eapply repv_ext; [exact R0|]. reflexivity.
    + intros i0 d1 Hi0 R1. rewrite (repv_get n _ A k RA) by lia. cbn [obind].
      rewrite (rep_get n m _ B k i0 RB) by lia. cbn [obind]. rewrite (repv_get m d1 _ i0 R1) by lia. cbn [obind].
      match goal with |- context [oset d1 i0 ?a] => destruct (repv_set m d1 _ i0 a R1) as (d3 & E3 & R3); [lia..|] end.
      exists d3. split; [exact E3|]. eapply repv_ext; [exact R3|]. intros i Hi. unfold upd1.
      rewrite !Nat.ltb_irrefl.
      destruct (Nat.eqb_spec i i0), (Nat.ltb_spec i i0), (Nat.ltb_spec i (i0 + 1)); subst; try lia; rewrite ?TS; reflexivity.
    + exists d1. split; [exact E1|]. eapply repv_ext; [exact R1|]. intros i Hi. cbv beta. cbn [Nat.add].
      destruct (Nat.ltb_spec i m); [reflexivity|lia].
  - exists d. split; [exact E|]. eapply repv_ext; [exact R'|]. reflexivity.
Qed.
End C.
