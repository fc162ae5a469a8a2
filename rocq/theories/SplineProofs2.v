(* The coefficient loops compute finite numbers satisfying the sweep equations. *)
From Coq Require Import QArith Qabs Qfield Qround Lqa Lia.
From Verif Require Import Base OrderModel OrderSpec InterpModel InterpSpec InterpProofs MatProofs VecProofs OrderProofs3 SplineModel SplineSpec SplineProofs.
Local Open Scope nat_scope.

Lemma get_ok l i : i < length l -> get l i = Ok (Some (node l i)).
Proof.
  intros H. unfold get, oget, node. rewrite (nth_error_nth' l 0%Q H). reflexivity.
Qed.
Lemma fdiv_ok a b : ~ (b == 0)%Q -> fdiv (Some a) (Some b) = Some (a / b)%Q.
Proof.
  intros H. unfold fdiv, qdiv. destruct (Qeq_bool b 0) eqn:E; [|reflexivity].
  apply Qeq_bool_iff in E. contradiction.
Qed.

(* ---------- the forward sweep ---------- *)
Section Forward.
Variables (n : nat) (g : nat -> Q * Q -> Q * Q) (f : list num * list num -> nat -> outcome (list num * list num)).
Fixpoint mz (i : nat) : Q * Q := match i with 0 => (0, 0)%Q | S j => g (S j) (mz j) end.
Hypothesis Hf : forall i mu z, 1 <= i < n ->
  oget mu (i - 1) = Ok (Some (fst (mz (i - 1)))) -> oget z (i - 1) = Ok (Some (snd (mz (i - 1)))) ->
  f (mu, z) i = (mu <- oset mu i (Some (fst (mz i))) ;; z <- oset z i (Some (snd (mz i))) ;; Ok (mu, z)).

Lemma forward_ok : 1 <= n -> exists mu z, ofold f (seq 1 (n - 1)) (zeros (n + 1), zeros (n + 1)) = Ok (mu, z) /\
  forall i, i < n -> oget mu i = Ok (Some (fst (mz i))) /\ oget z i = Ok (Some (snd (mz i))).
Proof using Hf.
  intros Hn.
  destruct (ofold_seq_inv
    (fun i (s : list num * list num) =>
       repv (n + 1) (fst s) (fun j => Some (if j <? i then fst (mz j) else 0%Q)) /\
       repv (n + 1) (snd s) (fun j => Some (if j <? i then snd (mz j) else 0%Q)))
    f (n - 1) 1 (zeros (n + 1), zeros (n + 1))) as ((mu & z) & E & R1 & R2).
  - split; cbn [fst snd]; (eapply repv_ext; [apply repv_repeat|]); intros i _; cbv beta;
      (destruct (Nat.ltb_spec i 1); [replace i with 0 by lia|]); reflexivity.
  - intros k (mu & z) Hk (R1 & R2). cbn [fst snd] in R1, R2.
    assert (k - 1 <? k = true) as Lt by (apply Nat.ltb_lt; lia).
    pose proof (repv_get _ _ _ (k - 1) R1 ltac:(lia)) as G1. cbv beta in G1. rewrite Lt in G1.
    pose proof (repv_get _ _ _ (k - 1) R2 ltac:(lia)) as G2. cbv beta in G2. rewrite Lt in G2.
    rewrite (Hf k mu z ltac:(lia) G1 G2).
    destruct (repv_set (n + 1) mu _ k (Some (fst (mz k))) R1 ltac:(lia)) as (mu' & E1 & R1').
    destruct (repv_set (n + 1) z _ k (Some (snd (mz k))) R2 ltac:(lia)) as (z' & E2 & R2').
    rewrite E1. cbn [obind]. rewrite E2. cbn [obind]. eexists. split; [reflexivity|]. cbn [fst snd].
    split; (eapply repv_ext; [eassumption|]); intros j Hj; cbv beta; unfold upd1;
      (destruct (Nat.eqb_spec j k) as [E|]; [rewrite E; destruct (Nat.ltb_spec k (k + 1)); [reflexivity|lia]|]);
      destruct (Nat.ltb_spec j k); destruct (Nat.ltb_spec j (k + 1)); try lia; reflexivity.
  - replace (1 + (n - 1)) with n in * by lia. cbn [fst snd] in *. exists mu, z. split; [exact E|].
    intros i Hi. assert (i <? n = true) as Lt by (apply Nat.ltb_lt; lia).
    rewrite (repv_get _ _ _ i R1) by lia. rewrite (repv_get _ _ _ i R2) by lia. rewrite Lt. auto.
Qed.
End Forward.

(* ---------- the backward sweep ---------- *)
Section Backward.
Variables (n : nat) (cf : nat -> Q -> Q) (bf df : nat -> Q -> Q -> Q)
  (f : list num * list num * list num -> nat -> outcome (list num * list num * list num)).
Fixpoint cr (j : nat) : Q := match j with 0 => 0%Q | S i => cf (n - S i) (cr i) end.
Definition cq (i : nat) : Q := cr (n - i).
Hypothesis Hf : forall i b c d c1, i < n -> oget c (i + 1) = Ok (Some c1) ->
  f (b, c, d) i = (c <- oset c i (Some (cf i c1)) ;; b <- oset b i (Some (bf i c1 (cf i c1))) ;;
                   d <- oset d i (Some (df i c1 (cf i c1))) ;; Ok (b, c, d)).

Lemma cq_step i : i < n -> cq i = cf i (cq (i + 1)).
Proof using.
  clear Hf f df bf. intros Hi. unfold cq. replace (n - i) with (S (n - (i + 1))) by lia. cbn [cr].
  replace (n - S (n - (i + 1))) with i by lia. reflexivity.
Qed.
Lemma cq_n : cq n = 0%Q.
Proof using. unfold cq. rewrite Nat.sub_diag. reflexivity. Qed.

Definition sel (k : nat) (v : nat -> Q) (j : nat) : num := Some (if (k <=? j) && (j <? n) then v j else 0%Q).

Lemma sel_step k v : k < n -> forall j, upd1 (sel (k + 1) v) k (Some (v k)) j = sel k v j.
Proof using.
  clear Hf f df bf cf. intros Hk j. unfold upd1, sel. destruct (Nat.eqb_spec j k) as [->|].
  - destruct (Nat.leb_spec k k); [|lia]. destruct (Nat.ltb_spec k n); [reflexivity|lia].
  - destruct (Nat.leb_spec (k + 1) j), (Nat.leb_spec k j); try lia; reflexivity.
Qed.

Let bq (i : nat) : Q := bf i (cq (i + 1)) (cq i).
Let dq (i : nat) : Q := df i (cq (i + 1)) (cq i).

Lemma backward_ok : exists b c d,
  ofold f (rev (seq 0 n)) (zeros (n + 1), zeros (n + 1), zeros (n + 1)) = Ok (b, c, d) /\
  repv (n + 1) b (sel 0 bq) /\ repv (n + 1) c (sel 0 cq) /\ repv (n + 1) d (sel 0 dq).
Proof using Hf.
  destruct (ofold_rev_inv
    (fun k (s : list num * list num * list num) => let '(b, c, d) := s in
       repv (n + 1) b (sel k bq) /\ repv (n + 1) c (sel k cq) /\ repv (n + 1) d (sel k dq))
    f n (zeros (n + 1), zeros (n + 1), zeros (n + 1))) as (((b & c) & d) & E & R).
  - assert (forall v, repv (n + 1) (zeros (n + 1)) (sel n v)) as Z.
    { intros v. eapply repv_ext; [apply repv_repeat|]. intros i _. unfold sel.
      destruct (Nat.leb_spec n i), (Nat.ltb_spec i n); try lia; reflexivity. }
    auto.
  - intros k ((b & c) & d) Hk (Rb & Rc & Rd).
    assert (oget c (k + 1) = Ok (Some (cq (k + 1)))) as G.
    { rewrite (repv_get _ _ _ (k + 1) Rc) by lia. unfold sel. destruct (Nat.leb_spec (k + 1) (k + 1)); [|lia].
      destruct (Nat.ltb_spec (k + 1) n); [reflexivity|]. replace (k + 1) with n by lia. rewrite cq_n. reflexivity. }
    rewrite (Hf k b c d _ Hk G). rewrite <- (cq_step k Hk).
    destruct (repv_set (n + 1) c _ k (Some (cq k)) Rc ltac:(lia)) as (c' & E1 & Rc').
    destruct (repv_set (n + 1) b _ k (Some (bq k)) Rb ltac:(lia)) as (b' & E2 & Rb').
    destruct (repv_set (n + 1) d _ k (Some (dq k)) Rd ltac:(lia)) as (d' & E3 & Rd').
    rewrite E1. cbn [obind]. fold (bq k). rewrite E2. cbn [obind]. fold (dq k). rewrite E3. cbn [obind].
    eexists. split; [reflexivity|]. cbv beta iota.
    split; [|split]; (eapply repv_ext; [eassumption|]); intros j _; apply sel_step; exact Hk.
  - exists b, c, d. split; [exact E|]. exact R.
Qed.
End Backward.

Definition finite3 (n : nat) (co : list num * list num * list num) (b c d : nat -> Q) : Prop :=
  let '(lb, lc, ld) := co in
  repv (n + 1) lb (fun i => Some (b i)) /\ repv (n + 1) lc (fun i => Some (c i)) /\ repv (n + 1) ld (fun i => Some (d i)).

Lemma sel_some n v : forall i, i < n -> sel n 0 v i = Some (v i).
Proof. intros i Hi. unfold sel. destruct (Nat.leb_spec 0 i), (Nat.ltb_spec i n); try lia; reflexivity. Qed.
Lemma sel_last n v : sel n 0 v n = Some 0%Q.
Proof. unfold sel. destruct (Nat.ltb_spec n n); [lia|]. rewrite andb_false_r. reflexivity. Qed.

Lemma h_pos x : increasing x -> forall i, i + 1 < length x -> (0 < node x (i + 1) - node x i)%Q.
Proof.
  intros H i Hi. assert (node x i < node x (i + 1))%Q; [|lra].
  apply (H i); unfold node; apply nth_error_nth'; lia.
Qed.

Section NonUniform.
Variables (y x : list Q).
Hypothesis Hx : increasing x.
Hypothesis Hl : length y = length x.
Hypothesis H2 : 2 <= length y.
Let n := length y - 1.
Let X := node x. Let Y := node y.
Let h (k : nat) : Q := (X (k + 1)%nat - X k)%Q.
Let al (i : nat) : Q := (3 * (Y (i + 1)%nat - Y i) / h i - 3 * (Y i - Y (i - 1)%nat) / h i)%Q.

Lemma h_pos_n i : i < n -> (0 < h i)%Q.
Proof using Hx Hl H2. intros Hi. apply h_pos; [exact Hx|]. subst n. lia. Qed.

Lemma sp_h_ok : exists lh, sp_h n x = Ok lh /\ forall i, i < n -> oget lh i = Ok (Some (h i)).
Proof using Hl H2.
  unfold sp_h.
  destruct (ofold_seq_inv
    (fun i lh => repv n lh (fun j => Some (if j <? i then h j else 0%Q)))
    (fun h i => x1 <- get x (i + 1) ;; x0 <- get x i ;; oset h i (x1 -! x0)) n 0 (zeros n)) as (lh & E & R).
  - eapply repv_ext; [apply repv_repeat|]. reflexivity.
  - intros k lh Hk R. rewrite !get_ok by (subst n; lia). cbn [obind].
    destruct (repv_set n lh _ k (Some (node x (k + 1)) -! Some (node x k)) R ltac:(lia)) as (lh' & E & R').
    exists lh'. split; [exact E|]. eapply repv_ext; [exact R'|]. intros j Hj. unfold upd1.
    destruct (Nat.eqb_spec j k) as [->|]; [destruct (Nat.ltb_spec k (k + 1)); [reflexivity|lia]|].
    destruct (Nat.ltb_spec j k), (Nat.ltb_spec j (k + 1)); try lia; reflexivity.
  - exists lh. split; [exact E|]. intros i Hi. rewrite (repv_get _ _ _ i R Hi).
    destruct (Nat.ltb_spec i (0 + n)); [reflexivity|lia].
Qed.

Lemma sp_al_ok lh : (forall i, i < n -> oget lh i = Ok (Some (h i))) ->
  exists la, sp_al n y lh = Ok la /\ forall i, 1 <= i < n -> oget la i = Ok (Some (al i)).
Proof using Hx Hl H2.
  intros Gh. unfold sp_al.
  destruct (ofold_seq_inv
    (fun i la => repv n la (fun j => Some (if (1 <=? j) && (j <? i) then al j else 0%Q)))
    (fun al i =>
      y1 <- get y (i + 1) ;; y0 <- get y i ;; ym <- get y (i - 1) ;; hi <- oget lh i ;;
      oset al i (fz 3 *! (y1 -! y0) /! hi -! fz 3 *! (y0 -! ym) /! hi)) (n - 1) 1 (zeros n)) as (la & E & R).
  - eapply repv_ext; [apply repv_repeat|]. intros i _. cbv beta.
    destruct (Nat.leb_spec 1 i), (Nat.ltb_spec i 1); try lia; reflexivity.
  - intros k la Hk R. rewrite !get_ok by (subst n; lia). cbn [obind]. rewrite Gh by lia. cbn [obind].
    pose proof (q_pos_ne _ (h_pos_n k ltac:(lia))) as Hne.
    unfold fsub, fmul, lift2, fz. rewrite !fdiv_ok by exact Hne.
    destruct (repv_set n la _ k (Some (al k)) R ltac:(lia)) as (la' & E & R').
    exists la'. split; [exact E|]. eapply repv_ext; [exact R'|]. intros j Hj. unfold upd1.
    destruct (Nat.eqb_spec j k) as [->|];
      [destruct (Nat.ltb_spec k (k + 1)), (Nat.leb_spec 1 k); try lia; reflexivity|].
    destruct (Nat.ltb_spec j k), (Nat.ltb_spec j (k + 1)); try lia; reflexivity.
  - exists la. split; [exact E|]. intros i Hi. rewrite (repv_get _ _ _ i R) by lia.
    destruct (Nat.leb_spec 1 i), (Nat.ltb_spec i (1 + (n - 1))); try lia; reflexivity.
Qed.

Let g (i : nat) (mz : Q * Q) : Q * Q :=
  let l := (2 * (X (i + 1)%nat - X (i - 1)%nat) - h (i - 1) * fst mz)%Q in
  (h i / l, (al i - h (i - 1) * snd mz) / l)%Q.
Let M (i : nat) : Q := fst (mz g i).
Let Z (i : nat) : Q := snd (mz g i).
Let l (i : nat) : Q := (2 * (X (i + 1)%nat - X (i - 1)%nat) - h (i - 1) * M (i - 1))%Q.

Lemma mz_step i : 1 <= i -> mz g i = g i (mz g (i - 1)).
Proof. intros Hi. destruct i as [|i]; [lia|]. cbn [mz]. replace (S i - 1) with i by lia. reflexivity. Qed.

Lemma l_split i : 1 <= i -> (l i == 2 * (h (i - 1) + h i) - h (i - 1) * M (i - 1))%Q.
Proof.
  intros Hi. unfold l, h. replace (i - 1 + 1) with i by lia. ring.
Qed.
Lemma M_bounds i : i < n -> (0 <= M i /\ M i <= 1)%Q.
Proof using Hx Hl H2.
  induction i as [|i IH]; intros Hi; [unfold M; cbn; lra|].
  unfold M. rewrite (mz_step (S i)) by lia.
  change (0 <= h (S i) / l (S i) /\ h (S i) / l (S i) <= 1)%Q.
  pose proof (l_split (S i) ltac:(lia)) as L. replace (S i - 1) with i in L by lia.
  destruct (IH ltac:(lia)) as (B1 & B2).
  destruct (pivot_step (h i) (h (S i)) (M i) (h_pos_n i ltac:(lia)) (h_pos_n (S i) ltac:(lia)) B1 B2) as (_ & P).
  rewrite L. exact P.
Qed.
Lemma l_pos i : 1 <= i < n -> (0 < l i)%Q.
Proof using Hx Hl H2.
  intros Hi. destruct (M_bounds (i - 1) ltac:(lia)) as (B1 & B2). rewrite l_split by lia.
  apply (pivot_step (h (i - 1)) (h i) (M (i - 1)) (h_pos_n (i - 1) ltac:(lia)) (h_pos_n i ltac:(lia)) B1 B2).
Qed.

Lemma sp_sweep_ok lh la : (forall i, i < n -> oget lh i = Ok (Some (h i))) ->
  (forall i, 1 <= i < n -> oget la i = Ok (Some (al i))) ->
  exists mu z, sp_sweep n x lh la = Ok (mu, z) /\
    forall i, i < n -> oget mu i = Ok (Some (M i)) /\ oget z i = Ok (Some (Z i)).
Proof using Hx Hl H2.
  intros Gh Ga. unfold sp_sweep. apply (forward_ok n g); [|subst n; lia].
  intros i mu z Hi Gm Gz. rewrite !get_ok by (subst n; lia). cbn [obind]. rewrite !Gh by lia. cbn [obind].
  rewrite Gm. cbn [obind]. rewrite Ga by lia. rewrite Gz.
  pose proof (q_pos_ne _ (l_pos i Hi)) as Hne. rewrite (mz_step i) by lia.
  unfold fsub, fmul, lift2, fz.
  transitivity (mu <- oset mu i (fdiv (Some (h i)) (Some (l i))) ;;
    z <- oset z i (fdiv (Some (al i - h (i - 1) * snd (mz g (i - 1)))%Q) (Some (l i))) ;; Ok (mu, z)); [reflexivity|].
  rewrite (fdiv_ok _ _ Hne), (fdiv_ok _ _ Hne). reflexivity.
Qed.

Let cf (i : nat) (c1 : Q) : Q := (Z i - M i * c1)%Q.
Let bf (i : nat) (c1 ci : Q) : Q := ((Y (i + 1)%nat - Y i) / h i - (1#3) * h i * (c1 + 2 * ci))%Q.
Let df (i : nat) (c1 ci : Q) : Q := ((1#3) * (c1 - ci) / h i)%Q.
Let C := cq n cf.
Let B (i : nat) : Q := bf i (C (i + 1)) (C i).
Let D (i : nat) : Q := df i (C (i + 1)) (C i).

Lemma sp_back_ok lh mu z : (forall i, i < n -> oget lh i = Ok (Some (h i))) ->
  (forall i, i < n -> oget mu i = Ok (Some (M i)) /\ oget z i = Ok (Some (Z i))) ->
  exists b c d, sp_back n y lh mu z = Ok (b, c, d) /\
    repv (n + 1) b (sel n 0 B) /\ repv (n + 1) c (sel n 0 C) /\ repv (n + 1) d (sel n 0 D).
Proof using Hx Hl H2.
  intros Gh Gm. unfold sp_back. apply (backward_ok n cf bf df).
  intros i b c d c1 Hi Gc. destruct (Gm i Hi) as (G1 & G2). rewrite G2, G1, Gc. cbn [obind].
  rewrite Gh by lia. rewrite !get_ok by (subst n; lia). cbn [obind].
  pose proof (q_pos_ne _ (h_pos_n i Hi)) as Hne.
  unfold fsub, fmul, fadd, lift2, fz. rewrite !fdiv_ok by exact Hne. reflexivity.
Qed.

Lemma swept_nonuniform : swept n X Y al M Z B C D.
Proof using Hx Hl H2.
  constructor.
  - intros i Hi. change (M i * l i == h i)%Q. unfold M at 1. rewrite (mz_step i) by lia.
    change (h i / l i * l i == h i)%Q. pose proof (q_pos_ne _ (l_pos i Hi)) as Hne.
    generalize (l i) (h i) Hne. intros p q Hp. field. exact Hp.
  - intros i Hi. change (Z i * l i == al i - h (i - 1) * Z (i - 1)%nat)%Q. unfold Z at 1. rewrite (mz_step i) by lia.
    change ((al i - h (i - 1) * Z (i - 1)%nat) / l i * l i == al i - h (i - 1) * Z (i - 1)%nat)%Q.
    pose proof (q_pos_ne _ (l_pos i Hi)) as Hne. generalize (l i) (al i - h (i - 1) * Z (i - 1)%nat)%Q Hne.
    intros p q Hp. field. exact Hp.
  - reflexivity.
  - reflexivity.
  - intros i Hi. unfold C. rewrite (cq_step n cf i Hi). reflexivity.
  - unfold C. rewrite cq_n. reflexivity.
  - intros i Hi. reflexivity.
  - intros i Hi. reflexivity.
Qed.

Let Bn (i : nat) : Q :=
  if i =? n then slope (B (n - 1)) (C (n - 1)) (D (n - 1)) (h (n - 1)) else B i.

Lemma sp_coefs_ok : exists co b c d al mu z, sp_coefs y x = Ok co /\ finite3 n co b c d /\
  swept n X Y al mu z b c d /\ (forall i, al i == 3 * (Y (i + 1)%nat - Y i) / h i - 3 * (Y i - Y (i - 1)%nat) / h i)%Q /\
  (c n == 0 /\ d n == 0 /\ b n == slope (b (n - 1)%nat) (c (n - 1)%nat) (d (n - 1)%nat) (h (n - 1)))%Q.
Proof using Hx Hl H2.
  unfold sp_coefs. fold n.
  destruct sp_h_ok as (lh & Eh & Gh). rewrite Eh. cbn [obind].
  destruct (sp_al_ok lh Gh) as (la & Ea & Ga). rewrite Ea. cbn [obind].
  destruct (sp_sweep_ok lh la Gh Ga) as (mu & z & Es & Gm). rewrite Es. cbn [obind].
  destruct (sp_back_ok lh mu z Gh Gm) as (b & c & d & Eb & Rb & Rc & Rd). rewrite Eb. cbn [obind].
  assert (n - 1 < n) as Hn by (subst n; lia).
  rewrite (repv_get _ _ _ (n - 1) Rb), (repv_get _ _ _ (n - 1) Rc), (repv_get _ _ _ (n - 1) Rd) by lia.
  rewrite !sel_some by exact Hn. cbn [obind]. rewrite !get_ok by (subst n; lia). cbn [obind].
  unfold fsub, fadd, fmul, lift2, fz.
  set (v := (B (n - 1)%nat + _ + _)%Q).
  destruct (repv_set (n + 1) b _ n (Some v) Rb ltac:(lia)) as (b' & E' & Rb'). rewrite E'. cbn [obind].
  set (D' := fun i => if i =? n then 0%Q else D i).
  set (B' := fun i => if i =? n then v else B i).
  exists (b', c, d), B', C, D', al, M, Z.
  split; [reflexivity|]. split; [|split; [|split]].
  - split; [|split].
    + eapply repv_ext; [exact Rb'|]. intros i Hi. unfold upd1, B'.
      destruct (Nat.eqb_spec i n); [reflexivity|]. apply sel_some. lia.
    + eapply repv_ext; [exact Rc|]. intros i Hi. destruct (Nat.eq_dec i n) as [->|].
      * rewrite sel_last. unfold C. rewrite cq_n. reflexivity.
      * apply sel_some. lia.
    + eapply repv_ext; [exact Rd|]. intros i Hi. unfold D'. destruct (Nat.eqb_spec i n) as [->|].
      * apply sel_last.
      * apply sel_some. lia.
  - destruct swept_nonuniform. constructor; try assumption.
    + intros i Hi. unfold B'. destruct (Nat.eqb_spec i n); [lia|]. auto.
    + intros i Hi. unfold D'. destruct (Nat.eqb_spec i n); [lia|]. auto.
  - intros i. reflexivity.
  - split; [unfold C; rewrite cq_n; reflexivity|]. unfold B', D'. rewrite Nat.eqb_refl.
    split; [reflexivity|]. destruct (Nat.eqb_spec (n - 1) n); [lia|]. unfold slope, v.
    fold X. unfold h. replace (n - 1 + 1) with n by lia. reflexivity.
Qed.
End NonUniform.
