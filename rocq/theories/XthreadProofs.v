(* Lemmas on cross matching with several threads: the search for a source only looks at the
   results of this source, and changes no other. *)
From Coq Require Import ZifyBool ZifyNat.
From Verif Require Import Base IndexModel VecModel VecProofs ImageModel ImageProofs MatModel MatProofs XmatchModel XbuckModel XthreadModel.
Local Open Scope nat_scope.

Section F.
Variables (rows n : nat).
Definition full (r : xres) : Prop := length (x_id r) = rows * n /\ length (x_d r) = rows * n.
Definition col_eq (i : nat) (r s : xres) : Prop := forall k, k < rows ->
  nth_error (x_id r) (k * n + i) = nth_error (x_id s) (k * n + i) /\
  nth_error (x_d r) (k * n + i) = nth_error (x_d s) (k * n + i).
Definition others (i : nat) (r r' : xres) : Prop := forall i', i' <> i -> i' < n -> col_eq i' r' r.
Definition frame (i : nat) (g : xres -> outcome xres) : Prop := forall r s r',
  full r -> full s -> col_eq i r s -> g r = Ok r' ->
  exists s', g s = Ok s' /\ full r' /\ full s' /\ col_eq i r' s' /\ others i r r' /\ others i s s'.

Lemma col_eq_refl i r : col_eq i r r.
Proof. intros k _. auto. Qed.
Lemma col_eq_sym i r s : col_eq i r s -> col_eq i s r.
Proof. intros H k Hk. destruct (H k Hk). auto. Qed.
Lemma col_eq_trans i r s t : col_eq i r s -> col_eq i s t -> col_eq i r t.
Proof. intros H G k Hk. destruct (H k Hk), (G k Hk). split; congruence. Qed.
Lemma others_refl i r : others i r r.
Proof. intros i' _ _. apply col_eq_refl. Qed.
Lemma others_trans i r s t : others i r s -> others i s t -> others i r t.
Proof. intros H G i' Hi Hn. eapply col_eq_trans; [apply G; assumption|apply H; assumption]. Qed.

Lemma frame_ok i : frame i Ok.
Proof. intros r s r' Hr Hs Hc [= <-]. exists s. split; [reflexivity|]. repeat (split; [assumption|]). split; apply others_refl. Qed.
Lemma frame_bind i g h : frame i g -> frame i h -> frame i (fun r => r <- g r ;; h r).
Proof.
  intros Hg Hh r s r' Fr Fs Hc E. apply obind_Ok in E as (r1 & E1 & E).
  destruct (Hg r s r1 Fr Fs Hc E1) as (s1 & -> & Fr1 & Fs1 & Hc1 & O1 & O1').
  destruct (Hh r1 s1 r' Fr1 Fs1 Hc1 E) as (s' & E' & Fr' & Fs' & Hc' & O2 & O2').
  cbn [obind]. exists s'. split; [exact E'|]. repeat (split; [assumption|]). split; eapply others_trans; eassumption.
Qed.
Lemma frame_ofold {T} i (g : xres -> T -> outcome xres) l : (forall a, frame i (fun r => g r a)) -> frame i (ofold g l).
Proof.
  intros H. induction l as [|a l IH]; cbn [ofold]; [apply frame_ok|]. exact (frame_bind i (fun r => g r a) (ofold g l) (H a) IH).
Qed.

Hypothesis Hn : 0 < n.
Variable (i : nat).
Hypothesis Hi : i < n.

(* the two arrays of one result *)
Lemma set_row {A} (d e : list A) k a d' : length d = rows * n -> length e = rows * n -> k < rows ->
  (forall k, k < rows -> nth_error d (k * n + i) = nth_error e (k * n + i)) ->
  pset n d k i a = Ok d' ->
  exists e', pset n e k i a = Ok e' /\ length d' = rows * n /\ length e' = rows * n /\
    (forall k, k < rows -> nth_error d' (k * n + i) = nth_error e' (k * n + i)) /\
    (forall i' k, i' <> i -> i' < n -> k < rows -> nth_error d' (k * n + i') = nth_error d (k * n + i')) /\
    (forall i' k, i' <> i -> i' < n -> k < rows -> nth_error e' (k * n + i') = nth_error e (k * n + i')).
Proof.
  intros Ld Le Hk Hc. unfold pset, oset. pose proof (pos_lt rows n k i Hk Hi). rewrite Ld, Le.
  destruct (Nat.ltb_spec (k * n + i) (rows * n)); [|lia]. intros [= <-]. eexists. split; [reflexivity|].
  rewrite !upd_length. split; [exact Ld|]. split; [exact Le|]. split; [|split].
  - intros k' Hk'. rewrite !nth_error_upd, Ld, Le. destruct (_ && _); [reflexivity|auto].
  - intros i' k' Hi' Hb Hk'. rewrite nth_error_upd. destruct (Nat.eqb_spec (k' * n + i') (k * n + i)) as [E|]; [|reflexivity].
    apply pos_inj in E; [lia|assumption|assumption].
  - intros i' k' Hi' Hb Hk'. rewrite nth_error_upd. destruct (Nat.eqb_spec (k' * n + i') (k * n + i)) as [E|]; [|reflexivity].
    apply pos_inj in E; [lia|assumption|assumption].
Qed.

Lemma frame_readd {T} k (P : option Z -> T) (h : T -> xres -> outcome xres) : k < rows -> (forall a, frame i (h a)) ->
  frame i (fun r => a <- at2 n (x_d r) k i ;; h (P a) r).
Proof.
  intros Hk Hh r s r' Fr Fs Hc E. apply obind_Ok in E as (a & Ea & E).
  assert (Es : at2 n (x_d s) k i = Ok a). { unfold at2, oget in *. rewrite <- (proj2 (Hc k Hk)). exact Ea. }
  rewrite Es. cbn [obind]. exact (Hh (P a) r s r' Fr Fs Hc E).
Qed.
Lemma frame_readi {T} k (P : option nat -> T) (h : T -> xres -> outcome xres) : k < rows -> (forall a, frame i (h a)) ->
  frame i (fun r => a <- at2 n (x_id r) k i ;; h (P a) r).
Proof.
  intros Hk Hh r s r' Fr Fs Hc E. apply obind_Ok in E as (a & Ea & E).
  assert (Es : at2 n (x_id s) k i = Ok a). { unfold at2, oget in *. rewrite <- (proj1 (Hc k Hk)). exact Ea. }
  rewrite Es. cbn [obind]. exact (Hh (P a) r s r' Fr Fs Hc E).
Qed.
Definition setd k a (r : xres) : outcome xres := d <- pset n (x_d r) k i a ;; Ok (XRes (x_id r) d (x_rid r) (x_rd r)).
Definition seti k a (r : xres) : outcome xres := id <- pset n (x_id r) k i a ;; Ok (XRes id (x_d r) (x_rid r) (x_rd r)).
Lemma frame_setd k a : k < rows -> frame i (setd k a).
Proof.
  intros Hk r s r' (Fr1 & Fr2) (Fs1 & Fs2) Hc E. unfold setd in *. apply obind_Ok in E as (d & Ed & [= <-]).
  destruct (set_row (x_d r) (x_d s) k a d) as (e & -> & L1 & L2 & C & O1 & O2); [exact Fr2|exact Fs2|exact Hk|intros; apply Hc; assumption|exact Ed|].
  cbn [obind]. eexists. split; [reflexivity|]. unfold full, col_eq, others, col_eq. cbn [x_id x_d].
  split; [auto|]. split; [auto|]. split; [intros k' Hk'; split; [apply Hc; exact Hk'|auto]|]. split; intros; auto.
Qed.
Lemma frame_seti k a : k < rows -> frame i (seti k a).
Proof.
  intros Hk r s r' (Fr1 & Fr2) (Fs1 & Fs2) Hc E. unfold seti in *. apply obind_Ok in E as (d & Ed & [= <-]).
  destruct (set_row (x_id r) (x_id s) k a d) as (e & -> & L1 & L2 & C & O1 & O2); [exact Fr1|exact Fs1|exact Hk|intros; apply Hc; assumption|exact Ed|].
  cbn [obind]. eexists. split; [reflexivity|]. unfold full, col_eq, others, col_eq. cbn [x_id x_d].
  split; [auto|]. split; [auto|]. split; [intros k' Hk'; split; [auto|apply Hc; exact Hk']|]. split; intros; auto.
Qed.
Lemma frame_ext g h : (forall r, g r = h r) -> frame i g -> frame i h.
Proof. intros H F r s r' Fr Fs Hc E. rewrite <- H in E. destruct (F r s r' Fr Fs Hc E) as (s' & E' & R). exists s'. rewrite <- H. auto. Qed.

Definition bub k (r : xres) : outcome xres := ' (id, d) <- bubble n i k (x_id r) (x_d r) ;; Ok (XRes id d (x_rid r) (x_rd r)).
Lemma bub_S k r : bub (S k) r =
  (a <- at2 n (x_d r) k i ;; b <- at2 n (x_d r) (k + 1) i ;;
   if dlt b a then
     r <- setd k b r ;; r <- setd (k + 1) a r ;;
     ia <- at2 n (x_id r) k i ;; ib <- at2 n (x_id r) (k + 1) i ;;
     r <- seti k ib r ;; r <- seti (k + 1) ia r ;; bub k r
   else Ok r).
Proof.
  unfold bub. cbn [bubble]. destruct (at2 n (x_d r) k i); try reflexivity. cbn [obind].
  destruct (at2 n (x_d r) (k + 1) i); try reflexivity. cbn [obind]. destruct (dlt _ _); [|destruct r; reflexivity].
  unfold setd. destruct (pset n (x_d r) k i _); try reflexivity. cbn [obind x_d x_id x_rid x_rd].
  destruct (pset n _ (k + 1) i _); try reflexivity. cbn [obind x_d x_id x_rid x_rd].
  destruct (at2 n (x_id r) k i); try reflexivity. cbn [obind].
  destruct (at2 n (x_id r) (k + 1) i); try reflexivity. cbn [obind].
  unfold seti. cbn [x_d x_id x_rid x_rd]. destruct (pset n (x_id r) k i _); try reflexivity. cbn [obind x_d x_id x_rid x_rd].
  destruct (pset n _ (k + 1) i _); reflexivity.
Qed.
Lemma frame_bub : forall k, k < rows -> frame i (bub k).
Proof.
  induction k as [|k IH]; intros Hk.
  - eapply frame_ext; [|apply frame_ok]. intros [? ? ? ?]. reflexivity.
  - eapply frame_ext; [intros r; symmetry; apply bub_S|].
    apply (frame_readd k (fun a => a) (fun a r => b <- at2 n (x_d r) (k + 1) i ;; if dlt b a then _ else Ok r)); [lia|].
    intros a. apply (frame_readd (k + 1) (fun b => b) (fun b r => if dlt b a then _ else Ok r)); [lia|].
    intros b. destruct (dlt b a); [|apply frame_ok].
    apply frame_bind; [apply frame_setd; lia|]. apply frame_bind; [apply frame_setd; lia|].
    apply (frame_readi k (fun a => a) (fun ia r => ib <- at2 n (x_id r) (k + 1) i ;; _)); [lia|]. intros ia.
    apply (frame_readi (k + 1) (fun a => a) (fun ib r => _)); [lia|]. intros ib.
    apply frame_bind; [apply frame_seti; lia|]. apply frame_bind; [apply frame_seti; lia|]. apply IH. lia.
Qed.

Variables (f : field) (dist : nat -> nat -> option Z) (nth_ : nat) (self : bool) (ids : nat -> nat -> list nat).
Hypothesis Hnth : 1 <= nth_ <= rows.
Lemma frame_work j : frame i (fun r => work dist nth_ n true r i j).
Proof.
  eapply frame_ext with (g := fun r => last <- at2 n (x_d r) (nth_ - 1) i ;;
    if dlt (dist i j) last then r <- seti (nth_ - 1) (Some j) r ;; r <- setd (nth_ - 1) (dist i j) r ;; bub (nth_ - 1) r else Ok r).
  - intros r. unfold work. cbv zeta. destruct (at2 n (x_d r) (nth_ - 1) i); try reflexivity. cbn [obind].
    destruct (dlt (dist i j) _); [|destruct r; reflexivity].
    unfold seti. destruct (pset n (x_id r) (nth_ - 1) i (Some j)); try reflexivity. cbn [obind x_id x_d x_rid x_rd].
    unfold setd. cbn [obind x_id x_d x_rid x_rd]. destruct (pset n (x_d r) (nth_ - 1) i _); reflexivity.
  - apply (frame_readd (nth_ - 1) (fun a => a) (fun last r => if dlt (dist i j) last then _ else Ok r)); [lia|].
    intros a. destruct (dlt (dist i j) a); [|apply frame_ok].
    apply frame_bind; [apply frame_seti; lia|]. apply frame_bind; [apply frame_setd; lia|]. apply frame_bub. lia.
Qed.
Lemma frame_scan x y : frame i (scan_bucket f dist nth_ n self ids i x y).
Proof.
  unfold scan_bucket. destruct (_ || _); [apply frame_ok|]. apply frame_ofold. intros j.
  destruct (self && (i =? j)); [apply frame_ok|apply frame_work].
Qed.
Lemma frame_search x0 y0 cd : forall fuel d, frame i (search f dist nth_ n self ids fuel d i x0 y0 cd).
Proof.
  induction fuel as [|fuel IH]; intros d; cbn [search]; [intros r s r' _ _ _ [=]|].
  destruct (offsets f d) as [offs| | | |]; cbn [obind]; [|intros r s r' _ _ _ [=]..].
  apply (frame_bind i (ofold _ offs) (fun r => last <- at2 n (x_d r) (nth_ - 1) i ;; _)).
  - apply frame_ofold. intros o. apply frame_scan.
  - apply (frame_readd (nth_ - 1) (fun a => a) (fun last r => if beyond last _ && _ then _ else Ok r)); [lia|].
    intros a. destruct (_ && _); [apply IH|apply frame_ok].
Qed.
End F.

(* a loop over sources *)
Section Run.
Variables (rows n : nat) (g : xres -> nat -> outcome xres) (e0 : xres).
Hypothesis Hg : forall i, i < n -> frame rows n i (fun r => g r i).
Hypothesis He : full rows n e0.

Lemma run_ok : forall m tb r0 r', full rows n r0 -> tb + m <= n -> (forall i, tb <= i < tb + m -> col_eq rows n i r0 e0) ->
  ofold g (seq tb m) r0 = Ok r' ->
  full rows n r' /\ (forall i, i < n -> ~ tb <= i < tb + m -> col_eq rows n i r' r0) /\
  forall i, tb <= i < tb + m -> exists e, g e0 i = Ok e /\ col_eq rows n i r' e.
Proof.
  induction m as [|m IH]; intros tb r0 r' F0 Hb Hc E; cbn [seq ofold] in E.
  - injection E as <-. split; [exact F0|]. split; [intros; apply col_eq_refl|]. intros; lia.
  - apply obind_Ok in E as (r1 & E1 & E).
    destruct (Hg tb ltac:(lia) r0 e0 r1 F0 He (Hc tb ltac:(lia)) E1) as (e & Ee & F1 & _ & C1 & O1 & _).
    destruct (IH (S tb) r1 r' F1) as (F' & O' & C'); [lia| |exact E|].
    + intros i Hi. eapply col_eq_trans; [apply O1; lia|apply Hc; lia].
    + split; [exact F'|]. split.
      * intros i Hi Ho. eapply col_eq_trans; [apply O'; lia|apply O1; lia].
      * intros i Hi. destruct (Nat.eq_dec i tb) as [->|Hne]; [|apply C'; lia].
        exists e. split; [exact Ee|]. eapply col_eq_trans; [apply O'; lia|exact C1].
Qed.
Lemma run_ex : forall m tb r0, full rows n r0 -> tb + m <= n -> (forall i, tb <= i < tb + m -> col_eq rows n i r0 e0) ->
  (forall i, tb <= i < tb + m -> exists e, g e0 i = Ok e) -> exists r', ofold g (seq tb m) r0 = Ok r'.
Proof.
  induction m as [|m IH]; intros tb r0 F0 Hb Hc Hx; cbn [seq ofold]; [eexists; reflexivity|].
  destruct (Hx tb ltac:(lia)) as (e & Ee).
  destruct (Hg tb ltac:(lia) e0 r0 e He F0 (col_eq_sym _ _ _ _ _ (Hc tb ltac:(lia))) Ee) as (r1 & -> & _ & F1 & C1 & _ & O1).
  cbn [obind]. apply IH; [exact F1|lia| |intros; apply Hx; lia].
  intros i Hi. eapply col_eq_trans; [apply O1; lia|apply Hc; lia].
Qed.
End Run.
