(* Proofs about the translation by splines. *)
From Coq Require Import QArith Qabs Qround Lqa Setoid Lia.
From Verif Require Import Base IndexProofs VecProofs VecProofs2 MatProofs ImageModel ImageSpec ImageProofs ImageProofs3 GenModel.
From Verif Require SplineModel SplineProofs4 SplineProofs5 SplineProperties BilinModel.
From Verif Require Import SplineSpec DrizModel DrizSpec DrizSpec2 DrizProofs12 RegridModel RegridSpec RegridProofs TransfModel TransfSpec TransfProofs.
Local Open Scope nat_scope.

(* the value of the spline through l at t *)
Definition G (l : list Q) (t : Q) : Q := match SplineModel.spline_point_u l t with Ok (Some z) => z | _ => 0%Q end.
Lemma G_ok l t : 2 <= length l -> mod1 t -> SplineModel.spline_point_u l t = Ok (Some (G l t)) /\
  natural_value (length l - 1) unit_node (node l) t (G l t).
Proof.
  intros H M. destruct M as [M1 M2]. rewrite big62 in M1, M2.
  destruct (SplineProofs4.spline_u_ok l t H) as (r & E & N); [rewrite big63; split; lra|]. unfold G. rewrite E. auto.
Qed.
Lemma row_ok l ts : 2 <= length l -> Forall mod1 ts -> spline_row (map Some l) ts = Ok (map (fun t => Some (G l t)) ts).
Proof.
  intros H M. unfold spline_row. rewrite all_some_map. rewrite SplineProperties.C65_vec_uniform by exact H.
  apply omapl_map. intros t Ht. apply G_ok; [exact H|]. rewrite Forall_forall in M. apply M. exact Ht.
Qed.
Lemma row_none l ts : 2 <= length l -> In None l -> spline_row l ts = Ok (map (fun _ => None) ts).
Proof. intros H N. unfold spline_row. rewrite all_some_in by exact N. destruct (Nat.leb_spec 2 (length l)); [reflexivity|lia]. Qed.
Lemma row_short l ts : length l < 2 -> spline_row l ts = CheckFail.
Proof.
  intros H. unfold spline_row. destruct (all_some l) as [l'|] eqn:E.
  - apply all_some_ok in E. rewrite E, map_length in H. unfold SplineModel.spline_vec_u. destruct (Nat.leb_spec 2 (length l')); [lia|reflexivity].
  - destruct (Nat.leb_spec 2 (length l)); [lia|reflexivity].
Qed.

Lemma repv_map {A B} (f : A -> B) (l : list A) g n : length l = n -> (forall i, i < n -> nth_error l i = Some (g i)) ->
  repv n (map f l) (fun i => f (g i)).
Proof. intros L H. split; [rewrite map_length; exact L|]. intros i Hi. rewrite nth_error_map, (H i Hi). reflexivity. Qed.
Lemma nth_seq_map {A} (f : nat -> A) n i : i < n -> nth_error (map f (seq 0 n)) i = Some (f i).
Proof. intros H. rewrite nth_error_map, nth_error_seq. destruct (Nat.ltb_spec i n); [reflexivity|lia]. Qed.

Definition set_line {A} (M : nat -> nat -> A) x (V : nat -> A) := fun i j => if i =? x then V j else M i j.
Definition set_col {A} (M : nat -> nat -> A) y (V : nat -> A) := fun i j => if j =? y then V i else M i j.
Lemma put_line_ok n m p M x r V : rep n m p M -> x < n -> repv m r V ->
  exists p', put_line m p x r = Ok p' /\ rep n m p' (set_line M x V).
Proof.
  intros R Hx Rv.
  destruct (ofold_seq_inv (fun b p => rep n m p (fun i j => if (i =? x) && (j <? b) then V j else M i j))
    (fun p y => z <- oget r y ;; pset m p x y z) m 0 p) as (p' & E & R').
  - eapply rep_ext; [exact R|]. intros i j Hi Hj. cbv beta. rewrite andb_false_r. reflexivity.
  - intros b p1 Hb R1. rewrite (repv_get m r V b Rv) by lia. cbn [obind].
    destruct (rep_set n m p1 _ x b (V b) R1 Hx ltac:(lia)) as (p2 & E2 & R2). exists p2. split; [exact E2|].
    eapply rep_ext; [exact R2|]. intros i j Hi Hj. unfold upd2. cbv beta.
    destruct (Nat.eqb_spec i x) as [->|], (Nat.eqb_spec j b) as [->|]; cbn [andb];
      repeat match goal with |- context [?p <? ?q] => destruct (Nat.ltb_spec p q) end; cbn [orb andb]; try lia; reflexivity.
  - exists p'. split; [exact E|]. eapply rep_ext; [exact R'|]. intros i j Hi Hj. unfold set_line. cbv beta.
    destruct (Nat.ltb_spec j (0 + m)); [|lia]. rewrite andb_true_r. reflexivity.
Qed.
Lemma put_column_ok n m p M y r V : rep n m p M -> y < m -> repv n r V ->
  exists p', put_column n m p y r = Ok p' /\ rep n m p' (set_col M y V).
Proof.
  intros R Hy Rv.
  destruct (ofold_seq_inv (fun b p => rep n m p (fun i j => if (j =? y) && (i <? b) then V i else M i j))
    (fun p x => z <- oget r x ;; pset m p x y z) n 0 p) as (p' & E & R').
  - eapply rep_ext; [exact R|]. intros i j Hi Hj. cbv beta. rewrite andb_false_r. reflexivity.
  - intros b p1 Hb R1. rewrite (repv_get n r V b Rv) by lia. cbn [obind].
    destruct (rep_set n m p1 _ b y (V b) R1 ltac:(lia) Hy) as (p2 & E2 & R2). exists p2. split; [exact E2|].
    eapply rep_ext; [exact R2|]. intros i j Hi Hj. unfold upd2. cbv beta.
    destruct (Nat.eqb_spec i b) as [->|], (Nat.eqb_spec j y) as [->|]; cbn [andb];
      repeat match goal with |- context [?p <? ?q] => destruct (Nat.ltb_spec p q) end; cbn [orb andb]; try lia; reflexivity.
  - exists p'. split; [exact E|]. eapply rep_ext; [exact R'|]. intros i j Hi Hj. unfold set_col. cbv beta.
    destruct (Nat.ltb_spec i (0 + n)); [|lia]. rewrite andb_true_r. reflexivity.
Qed.
Lemma get_line n m (p : list (option Q)) M x : rep n m p M -> x < n -> omapl (fun y => oget p (x * m + y)) (seq 0 m) = Ok (map (M x) (seq 0 m)).
Proof. intros (L & H) Hx. apply omapl_map. intros y Hy. apply in_seq in Hy. unfold oget. rewrite H by lia. reflexivity. Qed.
Lemma get_col n m (p : list (option Q)) M y : rep n m p M -> y < m -> omapl (fun x => oget p (x * m + y)) (seq 0 n) = Ok (map (fun x => M x y) (seq 0 n)).
Proof. intros (L & H) Hy. apply omapl_map. intros x Hx. apply in_seq in Hx. unfold oget. rewrite H by lia. reflexivity. Qed.

(* all lines are replaced by S of themselves *)
Lemma lines_ok n m p M (S : (nat -> option Q) -> nat -> option Q) t : rep n m p M ->
  (forall x, x < n -> exists r, spline_row (map (M x) (seq 0 m)) t = Ok r /\ repv m r (S (M x))) ->
  exists p', ofold (fun p x => l <- omapl (fun y => oget p (x * m + y)) (seq 0 m) ;; r <- spline_row l t ;; put_line m p x r) (seq 0 n) p = Ok p' /\
    rep n m p' (fun i => S (M i)).
Proof.
  intros R H.
  destruct (ofold_seq_inv (fun a p => rep n m p (fun i j => if i <? a then S (M i) j else M i j))
    (fun p x => l <- omapl (fun y => oget p (x * m + y)) (seq 0 m) ;; r <- spline_row l t ;; put_line m p x r) n 0 p) as (p' & E & R').
  - eapply rep_ext; [exact R|]. reflexivity.
  - intros a p1 Ha R1. rewrite (get_line n m p1 _ a R1) by lia. cbn [obind]. rewrite Nat.ltb_irrefl.
    destruct (H a ltac:(lia)) as (r & Er & Rr). change (fun j => M a j) with (M a). rewrite Er. cbn [obind].
    destruct (put_line_ok n m p1 _ a r _ R1 ltac:(lia) Rr) as (p2 & E2 & R2). exists p2. split; [exact E2|].
    eapply rep_ext; [exact R2|]. intros i j Hi Hj. unfold set_line. cbv beta.
    destruct (Nat.eqb_spec i a) as [->|]; repeat match goal with |- context [?p <? ?q] => destruct (Nat.ltb_spec p q) end; try lia; reflexivity.
  - exists p'. split; [exact E|]. eapply rep_ext; [exact R'|]. intros i j Hi Hj. cbv beta. destruct (Nat.ltb_spec i (0 + n)); [reflexivity|lia].
Qed.
Lemma cols_ok n m p M (S : (nat -> option Q) -> nat -> option Q) t : rep n m p M ->
  (forall y, y < m -> exists r, spline_row (map (fun x => M x y) (seq 0 n)) t = Ok r /\ repv n r (S (fun x => M x y))) ->
  exists p', ofold (fun p y => l <- omapl (fun x => oget p (x * m + y)) (seq 0 n) ;; r <- spline_row l t ;; put_column n m p y r) (seq 0 m) p = Ok p' /\
    rep n m p' (fun i j => S (fun x => M x j) i).
Proof.
  intros R H.
  destruct (ofold_seq_inv (fun a p => rep n m p (fun i j => if j <? a then S (fun x => M x j) i else M i j))
    (fun p y => l <- omapl (fun x => oget p (x * m + y)) (seq 0 n) ;; r <- spline_row l t ;; put_column n m p y r) m 0 p) as (p' & E & R').
  - eapply rep_ext; [exact R|]. reflexivity.
  - intros a p1 Ha R1. rewrite (get_col n m p1 _ a R1) by lia. cbn [obind]. rewrite Nat.ltb_irrefl.
    destruct (H a ltac:(lia)) as (r & Er & Rr). rewrite Er. cbn [obind].
    destruct (put_column_ok n m p1 _ a r _ R1 ltac:(lia) Rr) as (p2 & E2 & R2). exists p2. split; [exact E2|].
    eapply rep_ext; [exact R2|]. intros i j Hi Hj. unfold set_col. cbv beta.
    destruct (Nat.eqb_spec j a) as [->|]; repeat match goal with |- context [?p <? ?q] => destruct (Nat.ltb_spec p q) end; try lia; reflexivity.
  - exists p'. split; [exact E|]. eapply rep_ext; [exact R'|]. intros i j Hi Hj. cbv beta. destruct (Nat.ltb_spec j (0 + m)); [reflexivity|lia].
Qed.

Lemma shifted_mod n d : (forall i, i < n -> mod1 (unit_node i - d)) -> Forall mod1 (map (fun y => qn y - d)%Q (seq 0 n)).
Proof. intros H. apply Forall_forall. intros t Ht. apply in_map_iff in Ht. destruct Ht as (i & <- & Hi). apply in_seq in Hi. apply H. lia. Qed.

(* a line of finite values *)
Lemma finite_line n d (f : nat -> Q) : 2 <= n -> (forall i, i < n -> mod1 (unit_node i - d)) ->
  exists r, spline_row (map (fun i => Some (f i)) (seq 0 n)) (map (fun y => qn y - d)%Q (seq 0 n)) = Ok r /\
    repv n r (fun j => Some (G (map f (seq 0 n)) (unit_node j - d))).
Proof.
  intros H M. rewrite <- (map_map f Some). rewrite row_ok; [|rewrite map_length, seq_length; exact H|apply shifted_mod; exact M].
  eexists. split; [reflexivity|]. rewrite map_map.
  apply (repv_map (fun x => Some (G (map f (seq 0 n)) (qn x - d))) (seq 0 n) (fun i => i)); [apply seq_length|].
  intros i Hi. rewrite nth_error_seq. destruct (Nat.ltb_spec i n); [reflexivity|lia].
Qed.
Lemma G_value n d (f : nat -> Q) j : 2 <= n -> j < n -> (forall i, i < n -> mod1 (unit_node i - d)) ->
  natural_value (n - 1) unit_node f (unit_node j - d) (G (map f (seq 0 n)) (unit_node j - d)).
Proof.
  intros H Hj M. destruct (G_ok (map f (seq 0 n)) (unit_node j - d)) as (_ & N); [rewrite map_length, seq_length; exact H|apply M; exact Hj|].
  rewrite map_length, seq_length in N. revert N. apply SplineProofs5.natural_value_ext; [lia|].
  intros i Hi. unfold node. rewrite (nth_error_nth _ _ _ (nth_seq_map f n i ltac:(lia))). reflexivity.
Qed.

Lemma bispline_ok v dx dy def f : wf v -> 2 <= nr v -> 2 <= nc v ->
  (forall i j, i < nr v -> j < nc v -> px v (Z.of_nat i) (Z.of_nat j) = Some (Some (f i j))) ->
  (forall i, i < nr v -> mod1 (unit_node i - dx)) -> (forall j, j < nc v -> mod1 (unit_node j - dy)) ->
  exists r, translate_bicubic v dx dy def = Ok r /\ bispline v dx dy r.
Proof.
  intros W Hn Hm Hf Mx My. pose proof (px_rep v (fun i j => Some (f i j)) W Hf) as R.
  unfold translate_bicubic. cbv zeta. set (n := nr v) in *. set (m := nc v) in *.
  set (g := fun i j => G (map (f i) (seq 0 m)) (unit_node j - dy)).
  set (h := fun i j => G (map (fun k => g k j) (seq 0 n)) (unit_node i - dx)).
  set (un := fun (z : option Q) => match z with Some q => q | None => 0%Q end).
  assert (Un : forall (k : nat -> Q) l, map (fun i => un (Some (k i))) l = map k l) by reflexivity.
  destruct (lines_ok n m (pix v) _ (fun F j => Some (G (map (fun i => un (F i)) (seq 0 m)) (unit_node j - dy)))
    (map (fun y => qn y - dy)%Q (seq 0 m)) R) as (p1 & E1 & R1).
  { intros x Hx. destruct (finite_line m dy (f x) Hm My) as (r & Er & Rr). exists r. split; [exact Er|exact Rr]. }
  rewrite E1. cbn [obind].
  destruct (cols_ok n m p1 _ (fun F i => Some (G (map (fun i => un (F i)) (seq 0 n)) (unit_node i - dx)))
    (map (fun x => qn x - dx)%Q (seq 0 n)) R1) as (p2 & E2 & R2).
  { intros y Hy. destruct (finite_line n dx (fun x => g x y) Hn Mx) as (r & Er & Rr). exists r. split; [exact Er|exact Rr]. }
  rewrite E2. cbn [obind]. eexists. split; [reflexivity|]. split; [split; [reflexivity|]; split; [reflexivity|]; exact (proj1 R2)|].
  exists f, g, h. intros i j Hi Hj. split; [apply Hf; assumption|]. split; [apply (G_value m dy (f i)); assumption|].
  split; [apply (G_value n dx (fun k => g k j)); assumption|]. rewrite (rep_px n m p2 _ i j R2 Hi Hj). reflexivity.
Qed.

(* one value that is not finite is enough *)
Lemma bispline_none v dx dy def M i0 j0 : wf v -> 2 <= nr v -> 2 <= nc v ->
  (forall i j, i < nr v -> j < nc v -> px v (Z.of_nat i) (Z.of_nat j) = Some (M i j)) ->
  (forall i, i < nr v -> mod1 (unit_node i - dx)) -> (forall j, j < nc v -> mod1 (unit_node j - dy)) ->
  i0 < nr v -> j0 < nc v -> M i0 j0 = None ->
  exists r, translate_bicubic v dx dy def = Ok r /\ shows r (nr v) (nc v) (fun _ _ => Some None).
Proof.
  intros W Hn Hm Hf Mx My Hi0 Hj0 N. pose proof (px_rep v M W Hf) as R.
  unfold translate_bicubic. cbv zeta. set (n := nr v) in *. set (m := nc v) in *.
  set (t1 := map (fun y => qn y - dy)%Q (seq 0 m)). set (t2 := map (fun x => qn x - dx)%Q (seq 0 n)).
  set (S1 := fun (F : nat -> option Q) j => match spline_row (map F (seq 0 m)) t1 with Ok r => nth j r None | _ => None end).
  assert (A1 : forall F, exists r, spline_row (map F (seq 0 m)) t1 = Ok r /\ repv m r (S1 F)).
  { intros F. destruct (all_some (map F (seq 0 m))) as [l|] eqn:El.
    - apply all_some_ok in El. assert (L : length l = m) by (apply (f_equal (@length _)) in El; rewrite !map_length, seq_length in El; lia).
      assert (Er : spline_row (map F (seq 0 m)) t1 = Ok (map (fun t => Some (G l t)) t1)) by (rewrite El; apply row_ok; [lia|apply shifted_mod; exact My]).
      exists (map (fun t => Some (G l t)) t1). split; [exact Er|]. unfold S1. rewrite Er. apply repv_total. unfold t1. rewrite !map_length, seq_length. reflexivity.
    - apply all_some_none in El.
      assert (Er : spline_row (map F (seq 0 m)) t1 = Ok (map (fun _ => None) t1)) by (apply row_none; [rewrite map_length, seq_length; lia|exact El]).
      exists (map (fun _ => None) t1). split; [exact Er|]. unfold S1. rewrite Er. apply repv_total. unfold t1. rewrite !map_length, seq_length. reflexivity. }
  destruct (lines_ok n m (pix v) M S1 t1 R) as (p1 & E1 & R1); [intros x Hx; apply A1|].
  rewrite E1. cbn [obind].
  assert (B : forall j, j < m -> S1 (M i0) j = None).
  { intros j Hj. unfold S1. rewrite row_none; [|rewrite map_length, seq_length; lia|].
    - destruct (nth_in_or_default j (map (fun _ : Q => @None Q) t1) None) as [K|K]; [|exact K].
      apply in_map_iff in K. destruct K as (q & <- & _). reflexivity.
    - apply in_map_iff. exists j0. split; [exact N|]. apply in_seq. lia. }
  destruct (cols_ok n m p1 (fun i => S1 (M i)) (fun _ _ => None) t2 R1) as (p2 & E2 & R2).
  { intros y Hy. exists (map (fun _ => None) t2). split.
    - apply row_none; [rewrite map_length, seq_length; lia|]. apply in_map_iff. exists i0. split; [apply B; exact Hy|]. apply in_seq. lia.
    - split; [unfold t2; rewrite !map_length, seq_length; reflexivity|]. intros i Hi. unfold t2. rewrite map_map. exact (nth_seq_map (fun _ => @None Q) n i Hi). }
  rewrite E2. cbn [obind]. eexists. split; [reflexivity|]. split; [reflexivity|]. split; [reflexivity|]. split; [exact (proj1 R2)|].
  intros x y Hx Hy. rewrite <- (Z2Nat.id x), <- (Z2Nat.id y) by lia. apply (rep_px n m p2 _ _ _ R2); lia.
Qed.
