(* Lemmas on image operations, part 2: shifts, translations and flips. *)
From Coq Require Import NArith ZifyBool ZifyNat.
From Verif Require Import Base IndexModel IndexProofs VecModel VecProofs VecProofs2 ImageModel ImageSpec ImageProofs.

Section I.
Context {A : Type}.
Implicit Types (v w : img A) (def : A).

Lemma NoDup_map_inj {B C} (f : B -> C) l : NoDup l -> (forall a b, In a l -> In b l -> f a = f b -> a = b) -> NoDup (map f l).
Proof.
  induction 1 as [|a l Ha Hl IH]; intros H; cbn [map]; constructor.
  - intro C0. apply in_map_iff in C0. destruct C0 as (b & E & Hb). apply H in E; simpl; auto. subst. contradiction.
  - apply IH. intros b c Hb Hc. apply H; simpl; auto.
Qed.

Lemma nth_error_skipn {B} (l : list B) k j : nth_error (skipn k l) j = nth_error l (k + j).
Proof. revert l; induction k as [|k IH]; intros [|a l]; cbn; auto. destruct j; reflexivity. Qed.
Lemma nth_error_firstn {B} (l : list B) k j : nth_error (firstn k l) j = if j <? k then nth_error l j else None.
Proof.
  revert l j; induction k as [|k IH]; intros [|a l] [|j]; try reflexivity.
  - cbn [firstn nth_error]. destruct (S j <? S k); reflexivity.
  - cbn [firstn nth_error]. rewrite IH. reflexivity.
Qed.

(* f moves the j-th entry of a list of length n from src j; None: the constant dv *)
Definition moves (f : list A -> list A) (n : nat) (src : nat -> option nat) (dv : option A) : Prop :=
  forall l, length l = n -> length (f l) = n /\
    forall j, j < n -> nth_error (f l) j = match src j with Some j' => nth_error l j' | None => dv end.

Lemma on_range_spec f n src dv (p : nat -> nat) d :
  moves f n src dv -> (forall j j', src j = Some j' -> j < n -> j' < n) ->
  (forall j, j < n -> p j < length d) -> (forall i j, i < n -> j < n -> p i = p j -> i = j) ->
  exists d', on_range f d (map p (seq 0 n)) = Ok d' /\ length d' = length d /\
    (forall j, j < n -> nth_error d' (p j) = match src j with Some j' => nth_error d (p j') | None => dv end) /\
    (forall k, (forall j, j < n -> p j <> k) -> nth_error d' k = nth_error d k).
Proof.
  intros Hf Hs Hp Hi. unfold on_range.
  destruct (omapl_ok _ _ (oget d) (nth_error d) (map p (seq 0 n))) as (l & El & Ll & Nl).
  { intros x Hx. apply in_map_iff in Hx. destruct Hx as (j & <- & Hj). apply in_seq in Hj.
    destruct (nth_error d (p j)) as [a|] eqn:E.
    - exists a. unfold oget. rewrite E. auto.
    - apply nth_error_None in E. pose proof (Hp j). lia. }
  rewrite El. cbn [obind]. rewrite map_length, seq_length in Ll.
  destruct (Hf l Ll) as (Lf & Nf).
  assert (NP : forall j, j < n -> nth_error (map p (seq 0 n)) j = Some (p j)).
  { intros j Hj. apply map_nth_error. rewrite nth_error_seq.
    destruct (Nat.ltb_spec j n); [reflexivity|lia]. }
  destruct (assign_fold (map p (seq 0 n)) (f l) d) as (d' & E & L & S & O).
  - rewrite map_length, seq_length. lia.
  - apply NoDup_map_inj; [apply seq_NoDup|].
    intros i j H1 H2 H3. apply in_seq in H1, H2. apply Hi; auto; lia.
  - apply Forall_forall. intros x Hx. apply in_map_iff in Hx. destruct Hx as (j & <- & Hj).
    apply in_seq in Hj. apply Hp. lia.
  - exists d'. split; [exact E|]. split; [exact L|]. split.
    + intros j Hj. rewrite (S j (p j)) by (apply NP; exact Hj). rewrite Nf by exact Hj.
      destruct (src j) as [j'|] eqn:Ej; [|reflexivity]. apply (Nl j'). apply NP. eapply Hs; eauto.
    + intros k Hk. apply O. intro C. apply in_map_iff in C. destruct C as (j & Ej & Hj).
      apply in_seq in Hj. apply (Hk j); [lia|exact Ej].
Qed.

(* the same on every line i < N *)
Lemma on_lines f n src dv (p : nat -> nat -> nat) N : forall K d,
  K <= N -> moves f n src dv -> (forall j j', src j = Some j' -> j < n -> j' < n) ->
  (forall i j, i < N -> j < n -> p i j < length d) ->
  (forall i j i' j', i < N -> j < n -> i' < N -> j' < n -> p i j = p i' j' -> i = i' /\ j = j') ->
  exists d', ofold (fun d i => on_range f d (map (p i) (seq 0 n))) (seq 0 K) d = Ok d' /\ length d' = length d /\
    (forall i j, i < N -> j < n -> nth_error d' (p i j) =
       if i <? K then match src j with Some j' => nth_error d (p i j') | None => dv end
       else nth_error d (p i j)).
Proof.
  induction K as [|K IH]; intros d HK Hf Hs Hp Hi.
  - exists d. cbn [seq ofold]. split; [reflexivity|]. split; [reflexivity|]. intros. reflexivity.
  - destruct (IH d) as (d1 & E1 & L1 & S1); auto; [lia|].
    rewrite seq_S, ofold_app, E1. cbn [obind]. rewrite Nat.add_0_l. cbn [ofold].
    destruct (on_range_spec f n src dv (p K) d1) as (d' & E & L & S & O); auto.
    + intros j Hj. rewrite L1. apply Hp; [lia|exact Hj].
    + intros i j H1 H2 H3. apply (Hi K i K j) in H3; auto; lia.
    + rewrite E. exists d'. split; [reflexivity|]. split; [congruence|].
      intros i j H1 H2. destruct (Nat.eq_dec i K) as [->|Hne].
      * rewrite S by exact H2. destruct (Nat.ltb_spec K (Datatypes.S K)); [|lia].
        destruct (src j) as [j'|] eqn:Ej; [|reflexivity]. rewrite S1; [|lia|eapply Hs; eauto].
        rewrite Nat.ltb_irrefl. reflexivity.
      * rewrite O.
        -- rewrite S1 by assumption.
           destruct (Nat.ltb_spec i K), (Nat.ltb_spec i (Datatypes.S K)); try lia; reflexivity.
        -- intros j' Hj' C. symmetry in C. apply Hi in C; lia.
Qed.

Lemma row_loop f v d src dv : moves f (nc v) src dv -> (forall j j', src j = Some j' -> j < nc v -> j' < nc v) ->
  length d = nr v * nc v ->
  exists d', ofold (fun d ix => on_range f d (row_pos (nr v) (nc v) ix)) (seq 0 (nr v)) d = Ok d' /\
    length d' = length d /\
    (forall x y, x < nr v -> y < nc v -> nth_error d' (x * nc v + y) =
       match src y with Some y' => nth_error d (x * nc v + y') | None => dv end).
Proof.
  intros Hf Hs L.
  destruct (on_lines f (nc v) src dv (fun x y => x * nc v + y) (nr v) (nr v) d) as (d' & E & L' & S); auto.
  - intros i j H1 H2. rewrite L. apply pos_lt; assumption.
  - intros i j i' j' _ H2 _ H4 H. apply pos_inj in H; auto.
  - exists d'. split; [exact E|]. split; [exact L'|]. intros x y Hx Hy. rewrite S by assumption.
    destruct (Nat.ltb_spec x (nr v)); [reflexivity|lia].
Qed.
Lemma col_loop f v d src dv : moves f (nr v) src dv -> (forall j j', src j = Some j' -> j < nr v -> j' < nr v) ->
  length d = nr v * nc v ->
  exists d', ofold (fun d iy => on_range f d (col_pos (nr v) (nc v) iy)) (seq 0 (nc v)) d = Ok d' /\
    length d' = length d /\
    (forall x y, x < nr v -> y < nc v -> nth_error d' (x * nc v + y) =
       match src x with Some x' => nth_error d (x' * nc v + y) | None => dv end).
Proof.
  intros Hf Hs L.
  destruct (on_lines f (nr v) src dv (fun y x => x * nc v + y) (nc v) (nc v) d) as (d' & E & L' & S); auto.
  - intros i j H1 H2. rewrite L. apply pos_lt; assumption.
  - intros i j i' j' H1 _ H3 _ H. apply pos_inj in H; auto. tauto.
  - exists d'. split; [exact E|]. split; [exact L'|]. intros x y Hx Hy. rewrite (S y x) by assumption.
    destruct (Nat.ltb_spec y (nc v)); [reflexivity|lia].
Qed.

(* the three algorithms, as moves by an offset *)
Lemma rotate_moves n k : k <= n -> moves (rotate k) n (fun j => Some (if j <? n - k then j + k else j - (n - k))) None.
Proof.
  intros Hk l Hl. unfold rotate. split; [rewrite app_length, skipn_length, firstn_length; lia|].
  intros j Hj. destruct (Nat.ltb_spec j (n - k)).
  - rewrite nth_error_app1 by (rewrite skipn_length; lia). rewrite nth_error_skipn. f_equal. lia.
  - rewrite nth_error_app2 by (rewrite skipn_length; lia). rewrite skipn_length, Hl.
    rewrite nth_error_firstn. destruct (Nat.ltb_spec (j - (n - k)) k); [reflexivity|lia].
Qed.
Lemma shift_down_moves def n k : k <= n ->
  moves (shift_down def k) n (fun j => if j <? n - k then Some (j + k) else None) (Some def).
Proof.
  intros Hk l Hl. unfold shift_down. split; [rewrite app_length, skipn_length, repeat_length; lia|].
  intros j Hj. destruct (Nat.ltb_spec j (n - k)).
  - rewrite nth_error_app1 by (rewrite skipn_length; lia). rewrite nth_error_skipn. f_equal. lia.
  - rewrite nth_error_app2 by (rewrite skipn_length; lia). rewrite skipn_length, Hl.
    apply nth_error_repeat. lia.
Qed.
Lemma shift_up_moves def n k : k <= n ->
  moves (shift_up def k) n (fun j => if k <=? j then Some (j - k) else None) (Some def).
Proof.
  intros Hk l Hl. unfold shift_up. split; [rewrite app_length, firstn_length, repeat_length; lia|].
  intros j Hj. destruct (Nat.leb_spec k j).
  - rewrite nth_error_app2 by (rewrite repeat_length; lia). rewrite repeat_length, Hl.
    rewrite nth_error_firstn. destruct (Nat.ltb_spec (j - k) (n - k)); [reflexivity|lia].
  - rewrite nth_error_app1 by (rewrite repeat_length; lia). apply nth_error_repeat. lia.
Qed.

Lemma neg_rem_ok ts d : (- two63 < ts < two63)%Z -> 0 < d -> neg_rem ts d = Ok (- Z.rem ts (Z.of_nat d))%Z.
Proof.
  intros H Hd. unfold neg_rem, signed64.
  destruct (Z.leb_spec (- two63) (- ts)), (Z.ltb_spec (- ts) two63); try lia. cbn [andb obind].
  destruct (Z.eqb_spec (Z.of_nat d) 0); [lia|]. rewrite Z.rem_opp_l by lia. reflexivity.
Qed.

Lemma rem_bound ts d : 0 < d -> (- Z.of_nat d < Z.rem ts (Z.of_nat d) < Z.of_nat d)%Z.
Proof. intros H. pose proof (Z.rem_bound_abs ts (Z.of_nat d)). lia. Qed.

(* offset source of the circular shift *)
Definition circ (n : nat) (ts : Z) (j : nat) : nat := Z.to_nat ((Z.of_nat j - ts) mod Z.of_nat n).

Lemma circ_lt n ts j : 0 < n -> circ n ts j < n.
Proof. intros H. unfold circ. pose proof (Z.mod_pos_bound (Z.of_nat j - ts) (Z.of_nat n)). lia. Qed.

Lemma circ_rotate n ts j k : 0 < n -> j < n ->
  let t := (- Z.rem ts (Z.of_nat n))%Z in
  Z.of_nat k = (if t <? 0 then Z.of_nat n + t else t)%Z ->
  (if j <? n - k then j + k else j - (n - k)) = circ n ts j.
Proof.
  intros Hn Hj t Hk. pose proof (rem_bound ts n Hn).
  assert (E : ((Z.of_nat j - ts) mod Z.of_nat n = (Z.of_nat j + Z.of_nat k) mod Z.of_nat n)%Z).
  { pose proof (Z.quot_rem' ts (Z.of_nat n)) as Q.
    destruct (Z.ltb_spec t 0).
    - replace (Z.of_nat j + Z.of_nat k)%Z with (Z.of_nat j - ts + (Z.quot ts (Z.of_nat n) + 1) * Z.of_nat n)%Z
        by (unfold t in *; lia). rewrite Z.mod_add by lia. reflexivity.
    - replace (Z.of_nat j + Z.of_nat k)%Z with (Z.of_nat j - ts + Z.quot ts (Z.of_nat n) * Z.of_nat n)%Z
        by (unfold t in *; lia). rewrite Z.mod_add by lia. reflexivity. }
  unfold circ. rewrite E. assert (k < n) by (destruct (Z.ltb_spec t 0); unfold t in *; lia).
  destruct (Nat.ltb_spec j (n - k)).
  - rewrite Z.mod_small by lia. lia.
  - replace (Z.of_nat j + Z.of_nat k)%Z with (Z.of_nat j + Z.of_nat k - Z.of_nat n + 1 * Z.of_nat n)%Z by lia.
    rewrite Z.mod_add by lia. rewrite Z.mod_small by lia. lia.
Qed.

Lemma circ_zero n ts j : 0 < n -> j < n -> Z.rem ts (Z.of_nat n) = 0%Z -> circ n ts j = j.
Proof.
  intros Hn Hj H. rewrite <- (circ_rotate n ts j 0); [|exact Hn|exact Hj|rewrite H; reflexivity].
  destruct (Nat.ltb_spec j (n - 0)); lia.
Qed.

Lemma shift_spec v tsx tsy : wf v -> 0 < nr v -> 0 < nc v ->
  (- two63 < tsx < two63)%Z -> (- two63 < tsy < two63)%Z ->
  exists w, shift v tsx tsy = Ok w /\
    shows w (nr v) (nc v) (fun x y => px v ((x - tsx) mod Z.of_nat (nr v)) ((y - tsy) mod Z.of_nat (nc v)))%Z.
Proof.
  intros W P1 P2 Bx By. unfold shift. rewrite !neg_rem_ok by assumption. cbn [obind].
  set (tx := (if (- Z.rem tsx (Z.of_nat (nr v)) <? 0) then _ else _)%Z).
  set (ty := (if (- Z.rem tsy (Z.of_nat (nc v)) <? 0) then _ else _)%Z).
  pose proof (rem_bound tsx (nr v) P1) as Rx. pose proof (rem_bound tsy (nc v) P2) as Ry.
  assert (Tx : (0 <= tx < Z.of_nat (nr v))%Z) by (unfold tx; destruct (Z.ltb_spec (- Z.rem tsx (Z.of_nat (nr v))) 0); lia).
  assert (Ty : (0 <= ty < Z.of_nat (nc v))%Z) by (unfold ty; destruct (Z.ltb_spec (- Z.rem tsy (Z.of_nat (nc v))) 0); lia).
  assert (STEP1 : exists d, (if (ty =? 0)%Z then Ok (pix v)
        else ofold (fun d ix => on_range (rotate (Z.to_nat ty)) d (row_pos (nr v) (nc v) ix)) (seq 0 (nr v)) (pix v)) = Ok d /\
        length d = nr v * nc v /\
        forall x y, x < nr v -> y < nc v -> nth_error d (x * nc v + y) = nth_error (pix v) (x * nc v + circ (nc v) tsy y)).
  { destruct (Z.eqb_spec ty 0) as [E|E].
    - exists (pix v). split; [reflexivity|]. split; [exact W|]. intros x y Hx Hy. rewrite circ_zero; auto.
      unfold ty in E. destruct (Z.ltb_spec (- Z.rem tsy (Z.of_nat (nc v))) 0); lia.
    - destruct (row_loop _ v (pix v) _ _ (rotate_moves (nc v) (Z.to_nat ty) ltac:(lia))) as (d & E1 & L & S).
      + intros j j' Ej Hj. injection Ej as <-. destruct (Nat.ltb_spec j (nc v - Z.to_nat ty)); lia.
      + exact W.
      + exists d. split; [exact E1|]. split; [rewrite L; exact W|]. intros x y Hx Hy. rewrite S by assumption.
        rewrite (circ_rotate (nc v) tsy y (Z.to_nat ty)); auto. cbn zeta. unfold ty in *. lia. }
  destruct STEP1 as (d & E1 & L1 & S1). rewrite E1. cbn [obind].
  assert (STEP2 : exists d', (if (tx =? 0)%Z then Ok d
        else ofold (fun d iy => on_range (rotate (Z.to_nat tx)) d (col_pos (nr v) (nc v) iy)) (seq 0 (nc v)) d) = Ok d' /\
        length d' = nr v * nc v /\
        forall x y, x < nr v -> y < nc v -> nth_error d' (x * nc v + y) = nth_error d (circ (nr v) tsx x * nc v + y)).
  { destruct (Z.eqb_spec tx 0) as [E|E].
    - exists d. split; [reflexivity|]. split; [exact L1|]. intros x y Hx Hy. rewrite circ_zero; auto.
      unfold tx in E. destruct (Z.ltb_spec (- Z.rem tsx (Z.of_nat (nr v))) 0); lia.
    - destruct (col_loop _ v d _ _ (rotate_moves (nr v) (Z.to_nat tx) ltac:(lia))) as (d' & E2 & L & S).
      + intros j j' Ej Hj. injection Ej as <-. destruct (Nat.ltb_spec j (nr v - Z.to_nat tx)); lia.
      + exact L1.
      + exists d'. split; [exact E2|]. split; [rewrite L; exact L1|]. intros x y Hx Hy. rewrite S by assumption.
        rewrite (circ_rotate (nr v) tsx x (Z.to_nat tx)); auto. cbn zeta. unfold tx in *. lia. }
  destruct STEP2 as (d' & E2 & L2 & S2). rewrite E2. cbn [obind]. eexists. split; [reflexivity|].
  apply shows_nat; cbn [nr nc pix]; [reflexivity|reflexivity|exact L2|].
  intros x y Hx Hy. rewrite S2, S1 by (try assumption; apply circ_lt; assumption).
  pose proof (circ_lt (nr v) tsx x P1). pose proof (circ_lt (nc v) tsy y P2).
  rewrite <- px_in by assumption. unfold circ.
  rewrite !Z2Nat.id by (apply Z.mod_pos_bound; lia). reflexivity.
Qed.

(* source of the translation by t *)
Definition lin (n : nat) (t : Z) (j : nat) : option nat :=
  let s := (Z.of_nat j - t)%Z in if ((0 <=? s) && (s <? Z.of_nat n))%Z then Some (Z.to_nat s) else None.

Lemma lin_lt n t j j' : lin n t j = Some j' -> j' < n.
Proof. unfold lin. destruct (Z.leb_spec 0 (Z.of_nat j - t)), (Z.ltb_spec (Z.of_nat j - t) (Z.of_nat n)); cbn [andb]; try discriminate. intros [= <-]. lia. Qed.

(* (the model uses t = - rem ts) *)
Lemma trans_moves def n t : (- Z.of_nat n < t < Z.of_nat n)%Z -> t <> 0%Z ->
  moves (if (0 <? - t)%Z then shift_down def (Z.to_nat (- t)) else shift_up def (Z.to_nat (- - t))) n (lin n t) (Some def).
Proof.
  intros H Ht. destruct (Z.ltb_spec 0 (- t)).
  - intros l Hl. destruct (shift_down_moves def n (Z.to_nat (- t)) ltac:(lia) l Hl) as (H1 & H2).
    split; [exact H1|]. intros j Hj. rewrite H2 by exact Hj. unfold lin.
    destruct (Nat.ltb_spec j (n - Z.to_nat (- t))), (Z.leb_spec 0 (Z.of_nat j - t)),
      (Z.ltb_spec (Z.of_nat j - t) (Z.of_nat n)); try lia; cbn [andb]; f_equal; lia.
  - intros l Hl. destruct (shift_up_moves def n (Z.to_nat (- - t)) ltac:(lia) l Hl) as (H1 & H2).
    split; [exact H1|]. intros j Hj. rewrite H2 by exact Hj. unfold lin.
    destruct (Nat.leb_spec (Z.to_nat (- - t)) j), (Z.leb_spec 0 (Z.of_nat j - t)),
      (Z.ltb_spec (Z.of_nat j - t) (Z.of_nat n)); try lia; cbn [andb]; f_equal; lia.
Qed.

Lemma translate_spec v tsx tsy def : wf v -> 0 < nr v -> 0 < nc v ->
  (- two63 < tsx < two63)%Z -> (- two63 < tsy < two63)%Z ->
  exists w, translate_integer v tsx tsy def = Ok w /\
    shows w (nr v) (nc v)
      (fun x y => px_or def v (x - Z.rem tsx (Z.of_nat (nr v))) (y - Z.rem tsy (Z.of_nat (nc v))))%Z.
Proof.
  intros W P1 P2 Bx By. unfold translate_integer. rewrite !neg_rem_ok by assumption. cbn [obind].
  set (tx := Z.rem tsx (Z.of_nat (nr v))). set (ty := Z.rem tsy (Z.of_nat (nc v))).
  pose proof (rem_bound tsx (nr v) P1) as Tx. pose proof (rem_bound tsy (nc v) P2) as Ty.
  fold tx in Tx. fold ty in Ty.
  assert (STEP1 : exists d, (if (- ty =? 0)%Z then Ok (pix v)
        else ofold (fun d ix => on_range (if (0 <? - ty)%Z then shift_down def (Z.to_nat (- ty))
                  else shift_up def (Z.to_nat (- - ty))) d (row_pos (nr v) (nc v) ix)) (seq 0 (nr v)) (pix v)) = Ok d /\
        length d = nr v * nc v /\
        forall x y, x < nr v -> y < nc v -> nth_error d (x * nc v + y) =
          match lin (nc v) ty y with Some y' => nth_error (pix v) (x * nc v + y') | None => Some def end).
  { destruct (Z.eqb_spec (- ty) 0) as [E|E].
    - exists (pix v). split; [reflexivity|]. split; [exact W|]. intros x y Hx Hy. replace ty with 0%Z by lia.
      unfold lin. destruct (Z.leb_spec 0 (Z.of_nat y - 0)), (Z.ltb_spec (Z.of_nat y - 0) (Z.of_nat (nc v))); try lia.
      cbn [andb]. f_equal. lia.
    - destruct (row_loop _ v (pix v) _ _ (trans_moves def (nc v) ty Ty ltac:(lia))) as (d & E1 & L & S).
      + intros j j' Ej _. eapply lin_lt; exact Ej.
      + exact W.
      + exists d. split; [exact E1|]. split; [rewrite L; exact W|exact S]. }
  destruct STEP1 as (d & E1 & L1 & S1). rewrite E1. cbn [obind].
  assert (STEP2 : exists d', (if (- tx =? 0)%Z then Ok d
        else ofold (fun d iy => on_range (if (0 <? - tx)%Z then shift_down def (Z.to_nat (- tx))
                  else shift_up def (Z.to_nat (- - tx))) d (col_pos (nr v) (nc v) iy)) (seq 0 (nc v)) d) = Ok d' /\
        length d' = nr v * nc v /\
        forall x y, x < nr v -> y < nc v -> nth_error d' (x * nc v + y) =
          match lin (nr v) tx x with Some x' => nth_error d (x' * nc v + y) | None => Some def end).
  { destruct (Z.eqb_spec (- tx) 0) as [E|E].
    - exists d. split; [reflexivity|]. split; [exact L1|]. intros x y Hx Hy. replace tx with 0%Z by lia.
      unfold lin. destruct (Z.leb_spec 0 (Z.of_nat x - 0)), (Z.ltb_spec (Z.of_nat x - 0) (Z.of_nat (nr v))); try lia.
      cbn [andb]. f_equal. lia.
    - destruct (col_loop _ v d _ _ (trans_moves def (nr v) tx Tx ltac:(lia))) as (d' & E2 & L & S).
      + intros j j' Ej _. eapply lin_lt; exact Ej.
      + exact L1.
      + exists d'. split; [exact E2|]. split; [rewrite L; exact L1|exact S]. }
  destruct STEP2 as (d' & E2 & L2 & S2). rewrite E2. cbn [obind]. eexists. split; [reflexivity|].
  apply shows_nat; cbn [nr nc pix]; [reflexivity|reflexivity|exact L2|].
  intros x y Hx Hy. rewrite S2 by assumption. unfold px_or.
  destruct (lin (nr v) tx x) as [x'|] eqn:Ex.
  - pose proof (lin_lt _ _ _ _ Ex) as Hx'. rewrite S1 by assumption.
    destruct (lin (nc v) ty y) as [y'|] eqn:Ey.
    + pose proof (lin_lt _ _ _ _ Ey) as Hy'. unfold lin in Ex, Ey.
      destruct (Z.leb_spec 0 (Z.of_nat x - tx)), (Z.ltb_spec (Z.of_nat x - tx) (Z.of_nat (nr v))); try discriminate.
      destruct (Z.leb_spec 0 (Z.of_nat y - ty)), (Z.ltb_spec (Z.of_nat y - ty) (Z.of_nat (nc v))); try discriminate.
      injection Ex as <-. injection Ey as <-. rewrite px_in_Z by lia.
      destruct (total_px v W (Z.to_nat (Z.of_nat x - tx)) (Z.to_nat (Z.of_nat y - ty))) as (a & Ea); [lia|lia|].
      rewrite Ea. reflexivity.
    + rewrite px_out; [reflexivity|]. unfold lin in Ey.
      destruct (Z.leb_spec 0 (Z.of_nat y - ty)), (Z.ltb_spec (Z.of_nat y - ty) (Z.of_nat (nc v))); try discriminate; lia.
  - rewrite px_out; [reflexivity|]. unfold lin in Ex.
    destruct (Z.leb_spec 0 (Z.of_nat x - tx)), (Z.ltb_spec (Z.of_nat x - tx) (Z.of_nat (nr v))); try discriminate; lia.
Qed.
End I.
