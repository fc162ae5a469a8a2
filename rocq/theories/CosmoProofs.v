(* C109: proofs about cosmological functions of vecs. *)
From Coq Require Import QArith Lia Lqa.
From Verif Require Import Base VecModel VecProofs InterpModel InterpSpec InterpProofs InterpProperties OrderModel ReduceModel ReduceProofs CosmoModel CosmoSpec.
Local Open Scope nat_scope.

Lemma qlt_iff a b : qlt a b = true <-> (a < b)%Q.
Proof. unfold qlt. rewrite Bool.negb_true_iff, <- Bool.not_true_iff_false, Qle_bool_iff. split; [apply Qnot_le_lt|apply Qlt_not_le]. Qed.
Lemma where_in p z i : In i (where_ p z) <-> exists x, nth_error z i = Some x /\ p x = true.
Proof.
  unfold where_. rewrite filter_In, in_seq. split.
  - intros [_ H]. destruct (nth_error z i) as [x|]; [exists x; auto|discriminate].
  - intros (x & E & H). rewrite E. split; [|exact H]. assert (i < length z) by (apply nth_error_Some; congruence). lia.
Qed.
Lemma where_nodup p z : NoDup (where_ p z).
Proof. apply NoDup_filter, seq_NoDup. Qed.
Lemma values_ok z : forall ids, (forall i, In i ids -> exists q, nth_error z i = Some (Some q)) ->
  exists v, values z ids = Ok v /\ Forall2 (fun i q => nth_error z i = Some (Some q)) ids v.
Proof.
  induction ids as [|i ids IH]; intros H; [exists []; split; [reflexivity|constructor]|]. destruct (H i (or_introl eq_refl)) as (q & E). destruct IH as (v & Ev & F); [intros j J; apply H; right; exact J|].
  exists (q :: v). unfold values in *. cbn [omapl]. unfold oget at 1. rewrite E. cbn [obind]. rewrite Ev. cbn [obind]. split; [reflexivity|]. constructor; assumption.
Qed.
Lemma min_from_ok {A} (lt : A -> A -> bool) (le : A -> A -> Prop) : (forall a, le a a) -> (forall a b c, le a b -> le b c -> le a c) -> (forall a b, lt a b = true -> le a b) -> (forall a b, lt a b = false -> le b a) ->
  forall l bi bx i, let r := snd (min_from lt bi bx i l) in (r = bx \/ In r l) /\ le r bx /\ forall x, In x l -> le r x.
Proof.
  intros R T L N. induction l as [|x l IH]; intros bi bx i; cbn [min_from].
  - cbn. split; [auto|]. split; [apply R|]. intros ? [].
  - destruct (lt x bx) eqn:E.
    + destruct (IH i x (S i)) as (A1 & A2 & A3). split; [destruct A1 as [->|]; [right; left; reflexivity|right; right; assumption]|]. split; [apply T with x; [exact A2|apply L; exact E]|]. intros y [<-|I]; [exact A2|auto].
    + destruct (IH bi bx (S i)) as (A1 & A2 & A3). split; [destruct A1 as [->|]; [left; reflexivity|right; right; assumption]|]. split; [exact A2|]. intros y [<-|I]; [apply T with bx; [exact A2|apply N; exact E]|auto].
Qed.
Lemma min_q_ok v : v <> [] -> exists m, omap snd (min_ qlt v) = Ok m /\ In m v /\ forall x, In x v -> (m <= x)%Q.
Proof.
  destruct v as [|x l]; [congruence|]. intros _. cbn [min_ omap obind]. eexists. split; [reflexivity|]. destruct (min_from_ok qlt Qle Qle_refl Qle_trans) with (l := l) (bi := 0) (bx := x) (i := 1) as (A1 & A2 & A3).
  - intros a b H. apply qlt_iff in H. lra.
  - intros a b H. apply Qnot_lt_le. intros C. apply qlt_iff in C. congruence.
  - split; [destruct A1 as [->|]; [left; reflexivity|right; assumption]|]. intros y [<-|I]; auto.
Qed.
Lemma max_q_ok v : v <> [] -> exists m, omap snd (min_ (fun a b => qlt b a) v) = Ok m /\ In m v /\ forall x, In x v -> (x <= m)%Q.
Proof.
  destruct v as [|x l]; [congruence|]. intros _. cbn [min_ omap obind]. eexists. split; [reflexivity|]. destruct (min_from_ok (fun a b => qlt b a) (fun a b => b <= a)%Q Qle_refl) with (l := l) (bi := 0) (bx := x) (i := 1) as (A1 & A2 & A3).
  - intros a b c H K. apply Qle_trans with b; assumption.
  - intros a b H. apply qlt_iff in H. lra.
  - intros a b H. apply Qnot_lt_le. intros C. apply qlt_iff in C. congruence.
  - split; [destruct A1 as [->|]; [left; reflexivity|right; assumption]|]. intros y [<-|I]; auto.
Qed.
Lemma set_fold {A} : forall (l : list (nat * A)) (d : list A), NoDup (map fst l) -> (forall p, In p l -> fst p < length d) ->
  exists d', ofold (fun r '(i, x) => oset r i x) l d = Ok d' /\ length d' = length d /\
    (forall i x, In (i, x) l -> nth_error d' i = Some x) /\ (forall i, ~ In i (map fst l) -> nth_error d' i = nth_error d i).
Proof.
  induction l as [|[i x] l IH]; intros d N B; cbn [ofold].
  - exists d. split; [reflexivity|]. split; [reflexivity|]. split; [intros ? ? []|auto].
  - inversion N as [|? ? Ni N']; subst. pose proof (B _ (or_introl eq_refl)) as Bi. cbn [fst] in Bi. unfold oset at 1. destruct (Nat.ltb_spec i (length d)) as [_|?]; [|lia]. cbn [obind].
    destruct (IH (upd d i x) N') as (d' & E & L & I1 & O1). { intros p P. rewrite upd_length. apply B. right. exact P. }
    exists d'. split; [exact E|]. split; [rewrite L; apply upd_length|]. split.
    + intros j y [H|H]; [injection H as <- <-; rewrite O1 by exact Ni; apply nth_error_upd_same; exact Bi|exact (I1 j y H)].
    + intros j Hj. cbn [map fst] in Hj. rewrite O1 by (intros C; apply Hj; right; exact C). apply nth_error_upd_other. intros K. apply Hj. left. auto.
Qed.
Lemma set_fold_const {A} (x : A) : forall (l : list nat) (d : list A), (forall i, In i l -> i < length d) ->
  exists d', ofold (fun r i => oset r i x) l d = Ok d' /\ length d' = length d /\
    (forall i, In i l -> nth_error d' i = Some x) /\ (forall i, ~ In i l -> nth_error d' i = nth_error d i).
Proof.
  induction l as [|i l IH]; intros d B; cbn [ofold].
  - exists d. split; [reflexivity|]. split; [reflexivity|]. split; [intros ? []|auto].
  - pose proof (B _ (or_introl eq_refl)) as Bi. unfold oset at 1. destruct (Nat.ltb_spec i (length d)) as [_|?]; [|lia]. cbn [obind].
    destruct (IH (upd d i x)) as (d' & E & L & I1 & O1). { intros p P. rewrite upd_length. apply B. right. exact P. }
    exists d'. split; [exact E|]. split; [rewrite L; apply upd_length|]. split.
    + intros j Hj. destruct (in_dec Nat.eq_dec j l) as [J|J]; [auto|]. destruct Hj as [<-|]; [|contradiction]. rewrite O1 by exact J. apply nth_error_upd_same. exact Bi.
    + intros j Hj. rewrite O1 by (intros C; apply Hj; right; exact C). apply nth_error_upd_other. intros K. apply Hj. left. auto.
Qed.
Lemma Forall2_in_combine {A B} (R : A -> B -> Prop) a b : Forall2 R a b -> forall x, In x a -> exists y, In (x, y) (combine a b) /\ R x y.
Proof. induction 1 as [|x y a b H _ IH]; intros u I; [destruct I|]. destruct I as [<-|I]; [exists y; split; [left; reflexivity|exact H]|]. destruct (IH u I) as (w & W & K). exists w. split; [right; exact W|exact K]. Qed.
Lemma Forall2_len {A B} (R : A -> B -> Prop) a b : Forall2 R a b -> length a = length b.
Proof. induction 1; cbn; congruence. Qed.
Lemma map_fst_combine {A B} : forall (a : list A) (b : list B), length a = length b -> map fst (combine a b) = a.
Proof. induction a as [|x a IH]; intros [|y b] L; try discriminate; cbn in *; [reflexivity|f_equal; apply IH; lia]. Qed.
Lemma Forall2_comp {A B D} (R : A -> B -> Prop) (T : B -> D -> Prop) a b : Forall2 R a b -> forall c, Forall2 T b c -> Forall2 (fun x z => exists y, R x y /\ T y z) a c.
Proof. induction 1 as [|x y a b H _ IH]; intros c K; inversion K; subst; constructor; eauto. Qed.

Lemma interp_at_same y x t c : (forall u, In u x -> (u == c)%Q) -> 2 <= length x -> length y = length x -> interp_at y x t = Ok None.
Proof.
  intros H L Ly. assert (Nd : nondecreasing x) by (intros i a b A B; pose proof (H a (nth_error_In _ _ A)); pose proof (H b (nth_error_In _ _ B)); lra).
  destruct (pick_ok x t Nd L) as (low & k & E & Pk & B & S). unfold interp_at. rewrite E. cbn [obind]. rewrite Pk. destruct S as (a & b & Na & Nb & _).
  destruct (oget_in _ y k ltac:(lia)) as (ya & E1 & N1). destruct (oget_in _ y (k + 1) ltac:(lia)) as (yb & E2 & N2).
  rewrite E1. cbn [obind]. rewrite E2. cbn [obind]. rewrite (proj2 (oget_Ok _ _ _ _) Na). cbn [obind]. rewrite (proj2 (oget_Ok _ _ _ _) Nb). cbn [obind].
  unfold InterpModel.qdiv. replace (Qeq_bool (b - a) 0) with true; [reflexivity|]. symmetry. apply Qeq_bool_iff. pose proof (H a (nth_error_In _ _ Na)). pose proof (H b (nth_error_In _ _ Nb)). lra.
Qed.
Section Vec.
Variables (f : Q -> Q) (at0 at_nan : option Q) (rgen_log : Q -> Q -> nat -> outcome (list Q)).
Notation vect := (vectorized f at0 at_nan rgen_log).
Lemma positives z : exists zp, values z (where_ positive_z z) = Ok zp /\ Forall2 (fun i q => nth_error z i = Some (Some q)) (where_ positive_z z) zp /\
  (forall q, In q zp <-> In (Some q) z /\ (0 < q)%Q).
Proof.
  destruct (values_ok z (where_ positive_z z)) as (zp & E & F).
  { intros i I. apply where_in in I. destruct I as (x & Ex & P). destruct x as [q|]; [eauto|discriminate]. }
  exists zp. split; [exact E|]. split; [exact F|]. intros q. split.
  - intros I. assert (G : forall ids, (forall i, In i ids -> In i (where_ positive_z z)) -> Forall2 (fun i q => nth_error z i = Some (Some q)) ids zp -> In (Some q) z /\ (0 < q)%Q).
    { clear F E. intros ids H F. revert I. induction F as [|i u ids v H1 _ IH]; intros I; [destruct I|]. destruct I as [->|I]; [|apply IH; [intros j J; apply H; right; exact J|exact I]].
      split; [apply nth_error_In with i; exact H1|]. specialize (H i (or_introl eq_refl)). apply where_in in H. destruct H as (x & Ex & P). rewrite H1 in Ex. injection Ex as <-. apply qlt_iff. exact P. }
    apply (G _ (fun i H => H) F).
  - intros [I P]. destruct (In_nth_error _ _ I) as (i & Ei). assert (Hi : In i (where_ positive_z z)) by (apply where_in; exists (Some q); split; [exact Ei|apply qlt_iff; exact P]).
    destruct (Forall2_in_combine _ _ _ F i Hi) as (y & C & R). rewrite Ei in R. injection R as <-. apply in_combine_r in C. exact C.
Qed.
Lemma vectorized_large npt z a b : 2 <= npt -> 2 * npt <= length z -> log_grid rgen_log -> positive_range z a b ->
  exists mi ma g, (mi == a)%Q /\ (ma == b)%Q /\ rgen_log mi ma npt = Ok g /\ length g = npt /\
  forall vs zp, values z (where_ positive_z z) = Ok zp -> interp_vec (map f g) g zp = Ok vs ->
  exists r, vect npt z = Ok r /\ length r = length z /\
    (forall i q, nth_error z i = Some (Some q) -> (q <= 0)%Q -> nth_error r i = Some at0) /\
    (forall i, nth_error z i = Some None -> nth_error r i = Some (Some 0%Q)) /\
    (forall i o, In (i, o) (combine (where_ positive_z z) vs) -> nth_error r i = Some o).
Proof.
  intros Hn Hl G (Ia & Ib & Pa & Pb & Rg). destruct (positives z) as (zp & E & F & P).
  assert (Nz : zp <> []) by (intros ->; apply (proj2 (P a)); auto).
  destruct (min_q_ok zp Nz) as (mi & Emi & Imi & Lmi). destruct (max_q_ok zp Nz) as (ma & Ema & Ima & Lma).
  assert (Q1 : (mi == a)%Q) by (apply Qle_antisym; [apply Lmi, P; auto|apply P in Imi; destruct Imi as [X Y]; apply (Rg _ X Y)]).
  assert (Q2 : (ma == b)%Q) by (apply Qle_antisym; [apply P in Ima; destruct Ima as [X Y]; apply (Rg _ X Y)|apply Lma, P; auto]).
  assert (Pm : (0 < mi)%Q) by lra. assert (Lm : (mi <= ma)%Q) by (destruct (Rg a Ia Pa); lra).
  destruct (G mi ma npt Pm Lm Hn) as (g & _ & _ & Eg & Lg & _). exists mi, ma, g. do 4 (split; [assumption|]).
  intros vs zp' E' V. rewrite E in E'. injection E' as <-.
  assert (Lv : length vs = length zp). { unfold interp_vec in V. destruct (length (map f g) =? length g); [|discriminate]. destruct (2 <=? length (map f g)); [|discriminate]. cbn [check obind] in V. clear - V. revert vs V. induction zp as [|t l IH]; intros vs V; cbn [omapl] in V; [injection V as <-; reflexivity|]. destruct (interp_at (map f g) g t) as [u| | | |]; try discriminate. cbn [obind] in V. destruct (omapl _ l) as [w| | | |] eqn:W; try discriminate. cbn [obind] in V. injection V as <-. cbn. f_equal. apply IH. reflexivity. }
  unfold vectorized. destruct (Nat.ltb_spec (length z) (2 * npt)) as [?|_]; [lia|]. rewrite E. cbn [obind]. rewrite Emi. cbn [obind]. rewrite Ema. cbn [obind]. rewrite Eg. cbn [obind]. rewrite V. cbn [obind].
  pose proof (Forall2_len _ _ _ F) as Lf. assert (Mf : map fst (combine (where_ positive_z z) vs) = where_ positive_z z) by (apply map_fst_combine; lia).
  destruct (set_fold (combine (where_ positive_z z) vs) (repeat (Some 0%Q) (length z))) as (r1 & E1 & L1 & I1 & O1).
  { rewrite Mf. apply where_nodup. }
  { intros [i o] I. cbn [fst]. apply in_combine_l in I. apply where_in in I. destruct I as (x & X & _). rewrite repeat_length. apply nth_error_Some. congruence. }
  rewrite E1. cbn [obind]. rewrite repeat_length in L1. destruct (set_fold_const at0 (where_ null_z z) r1) as (r & Er & Lr & I2 & O2).
  { intros i I. apply where_in in I. destruct I as (x & X & _). rewrite L1. apply nth_error_Some. congruence. }
  exists r. split; [exact Er|]. split; [congruence|]. rewrite Mf in O1. split; [|split].
  - intros i q Ei Hq. apply I2. apply where_in. exists (Some q). split; [exact Ei|]. apply Qle_bool_iff. exact Hq.
  - intros i Ei. assert (i < length z) by (apply nth_error_Some; congruence). rewrite O2, O1.
    + apply nth_error_repeat. assumption.
    + intros C. apply where_in in C. destruct C as (x & X & Y). rewrite Ei in X. injection X as <-. discriminate.
    + intros C. apply where_in in C. destruct C as (x & X & Y). rewrite Ei in X. injection X as <-. discriminate.
  - intros i o I. rewrite O2; [exact (I1 i o I)|]. intros C. apply in_combine_l in I. apply where_in in C, I. destruct C as (x & X & Y), I as (x' & X' & Y'). rewrite X in X'. injection X' as <-. destruct x as [q|]; [|discriminate]. cbn in Y, Y'. apply qlt_iff in Y'. apply Qle_bool_iff in Y. lra.
Qed.

Lemma where_Forall2 {B} (R : nat -> B -> Prop) ids vs : Forall2 R ids vs -> forall i, In i ids -> exists o, In (i, o) (combine ids vs) /\ R i o.
Proof. apply Forall2_in_combine. Qed.
(* the positive redshifts are not all the same *)
Lemma vectorized_spread npt z a b : 2 <= npt -> 2 * npt <= length z -> log_grid rgen_log -> positive_range z a b -> (a < b)%Q ->
  exists r g, vect npt z = Ok r /\ length r = length z /\ length g = npt /\ increasing g /\
    (exists x0 xn, nth_error g 0 = Some x0 /\ nth_error g (npt - 1) = Some xn /\ (x0 == a)%Q /\ (xn == b)%Q) /\
    (forall i q, nth_error z i = Some (Some q) -> (q <= 0)%Q -> nth_error r i = Some at0) /\
    (forall i, nth_error z i = Some None -> nth_error r i = Some (Some 0%Q)) /\
    (forall i q, nth_error z i = Some (Some q) -> (0 < q)%Q -> exists v, nth_error r i = Some (Some v) /\ piecewise g (map f g) q v).
Proof.
  intros Hn Hl G R Lt. pose proof R as (Ia & Ib & Pa & Pb & Rg). destruct (vectorized_large npt z a b Hn Hl G R) as (mi & ma & g & Q1 & Q2 & Eg & Lg & K).
  destruct (G mi ma npt ltac:(lra) ltac:(lra) Hn) as (g' & x0 & xn & Eg' & _ & N0 & Z0 & Nn & Zn & Inc & _). rewrite Eg in Eg'. injection Eg' as <-. specialize (Inc ltac:(lra)).
  destruct (positives z) as (zp & E & F & P). destruct (C41_vector (map f g) g zp Inc ltac:(lia) (map_length _ _)) as (vs & V & Fv).
  destruct (K vs zp E V) as (r & Er & Lr & R0 & Rn & Rp). exists r, g. do 4 (split; [assumption|]). split; [exists x0, xn; repeat split; try assumption; lra|]. split; [exact R0|]. split; [exact Rn|].
  intros i q Ei Hq. pose proof (Forall2_comp _ _ _ _ F _ Fv) as FF. destruct (Forall2_in_combine _ _ _ FF i) as (o & Io & (y & Ey & v & -> & Pw)).
  { apply where_in. exists (Some q). split; [exact Ei|]. apply qlt_iff. exact Hq. }
  rewrite Ei in Ey. injection Ey as <-. exists v. split; [exact (Rp _ _ Io)|exact Pw].
Qed.
(* they are all the same *)
Lemma vectorized_same npt z a b : 2 <= npt -> 2 * npt <= length z -> log_grid rgen_log -> positive_range z a b -> (a == b)%Q ->
  exists r, vect npt z = Ok r /\ length r = length z /\
    (forall i q, nth_error z i = Some (Some q) -> (0 < q)%Q -> nth_error r i = Some None).
Proof.
  intros Hn Hl G R Eq. pose proof R as (Ia & Ib & Pa & Pb & Rg). destruct (vectorized_large npt z a b Hn Hl G R) as (mi & ma & g & Q1 & Q2 & Eg & Lg & K).
  destruct (G mi ma npt ltac:(lra) ltac:(lra) Hn) as (g' & x0 & xn & Eg' & _ & N0 & Z0 & Nn & Zn & _ & Same). rewrite Eg in Eg'. injection Eg' as <-. specialize (Same ltac:(lra)).
  destruct (positives z) as (zp & E & F & P).
  assert (V : interp_vec (map f g) g zp = Ok (map (fun _ => None) zp)).
  { unfold interp_vec. rewrite map_length, Nat.eqb_refl. destruct (Nat.leb_spec 2 (length g)); [|lia]. cbn [check obind]. clear - Same Lg Hn. induction zp as [|t l IH]; [reflexivity|]. cbn [omapl map]. rewrite (interp_at_same _ g t mi Same) by (rewrite ?map_length; lia). cbn [obind]. rewrite IH. reflexivity. }
  destruct (K _ zp E V) as (r & Er & Lr & _ & _ & Rp). exists r. split; [exact Er|]. split; [exact Lr|]. intros i q Ei Hq.
  assert (Fn : Forall2 (fun (_ : Q) (o : option Q) => o = None) zp (map (fun _ => None) zp)) by (clear; induction zp; constructor; auto).
  destruct (Forall2_in_combine _ _ _ (Forall2_comp _ _ _ _ F _ Fn) i) as (o & Io & (y & _ & ->)); [|exact (Rp _ _ Io)].
  apply where_in. exists (Some q). split; [exact Ei|]. apply qlt_iff. exact Hq.
Qed.
Lemma vectorized_none npt z : 2 * npt <= length z -> (forall q, In (Some q) z -> (q <= 0)%Q) -> vect npt z = CheckFail.
Proof.
  intros Hl H. unfold vectorized. destruct (Nat.ltb_spec (length z) (2 * npt)) as [?|_]; [lia|]. destruct (positives z) as (zp & E & F & P). rewrite E. cbn [obind].
  destruct zp as [|q l]; [reflexivity|]. exfalso. destruct (proj1 (P q) (or_introl eq_refl)) as [A B]. specialize (H q A). lra.
Qed.
End Vec.
(* the piecewise function through the values of an increasing function is increasing, and close to it *)
Lemma on_line_between xa ya xb yb t r : (xa < xb)%Q -> (xa <= t)%Q -> (t <= xb)%Q -> (ya <= yb)%Q -> on_line xa ya xb yb t r -> (ya <= r)%Q /\ (r <= yb)%Q.
Proof. unfold on_line. intros A B D E H. split; nra. Qed.
Lemma on_line_mono xa ya xb yb t t' r r' : (xa < xb)%Q -> (t <= t')%Q -> (ya <= yb)%Q -> on_line xa ya xb yb t r -> on_line xa ya xb yb t' r' -> (r <= r')%Q.
Proof. unfold on_line. intros A B D H H'. nra. Qed.
Lemma piecewise_in (f : Q -> Q) g q v x0 xn : increasing g -> nth_error g 0 = Some x0 -> nth_error g (length g - 1) = Some xn -> (x0 <= q <= xn)%Q -> piecewise g (map f g) q v ->
  exists k xa xb, nth_error g k = Some xa /\ nth_error g (k + 1) = Some xb /\ (xa < xb)%Q /\ (xa <= q <= xb)%Q /\ (k + 2 = length g \/ (q < xb)%Q) /\ on_line xa (f xa) xb (f xb) q v.
Proof.
  intros I N0 Nn Hq (k & xa & xb & ya & yb & (a & b & A & B & S1 & S2) & Nx & Nx' & Ny & Ny' & Ol). rewrite Nx in A. injection A as <-. rewrite Nx' in B. injection B as <-.
  rewrite nth_error_map, Nx in Ny. rewrite nth_error_map, Nx' in Ny'. injection Ny as <-. injection Ny' as <-. exists k, xa, xb. split; [exact Nx|]. split; [exact Nx'|]. split; [exact (I _ _ _ Nx Nx')|]. split; [|split; [exact S2|exact Ol]].
  split.
  - destruct S1 as [->|]; [|assumption]. rewrite N0 in Nx. injection Nx as <-. apply Hq.
  - destruct S2 as [E|L]; [|lra]. replace (length g - 1) with (k + 1) in Nn by lia. rewrite Nx' in Nn. injection Nn as <-. apply Hq.
Qed.
