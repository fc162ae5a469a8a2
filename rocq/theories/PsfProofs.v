(* C107: proofs about fitting and subtracting a point source. *)
From Coq Require Import Lia.
From Verif Require Import Base VecModel VecProofs ImageModel ImageSpec ImageProofs ImageProofs3 MatModel LinfitModel LinfitProofs PsfModel.
Local Open Scope nat_scope.

Section Sub.
Context {F : Type}.
Variables fsub fmul : F -> F -> F.
Lemma sub_fold (flux : F) : forall (l : list (Z * F)) (d : list F), NoDup (map (fun p => Z.to_nat (fst p)) l) -> Forall (fun p => Z.to_nat (fst p) < length d) l ->
  exists d', ofold (fun d '(i, v) => x <- oget d (Z.to_nat i) ;; oset d (Z.to_nat i) (fsub x (fmul flux v))) l d = Ok d' /\ length d' = length d /\
    (forall i v x, In (i, v) l -> nth_error d (Z.to_nat i) = Some x -> nth_error d' (Z.to_nat i) = Some (fsub x (fmul flux v))) /\
    (forall k, ~ In k (map (fun p => Z.to_nat (fst p)) l) -> nth_error d' k = nth_error d k).
Proof.
  induction l as [|[i v] l IH]; intros d N B; cbn [ofold].
  - exists d. split; [reflexivity|]. split; [reflexivity|]. split; [intros ? ? ? []|auto].
  - inversion N as [|? ? Ni N']; subst. inversion B as [|? ? Bi B']; subst. cbn [fst] in *. unfold oget at 1. destruct (nth_error d (Z.to_nat i)) as [x|] eqn:E; [|apply nth_error_None in E; lia]. cbn [obind].
    unfold oset at 1. destruct (Nat.ltb_spec (Z.to_nat i) (length d)) as [_|?]; [|lia]. cbn [obind]. destruct (IH (upd d (Z.to_nat i) (fsub x (fmul flux v))) N') as (d' & E' & L & In1 & Out).
    { rewrite upd_length. exact B'. }
    exists d'. split; [exact E'|]. split; [rewrite L; apply upd_length|]. split.
    + intros j w y [H|H] Hy.
      * injection H as <- <-. rewrite Out by exact Ni. rewrite nth_error_upd_same by exact Bi. congruence.
      * apply In1; [exact H|]. rewrite nth_error_upd_other; [exact Hy|]. intros K. apply Ni. first [rewrite K|rewrite <- K]. apply in_map_iff. exists (j, w). auto.
    + intros k Hk. cbn [map fst] in Hk. rewrite Out by (intros C; apply Hk; right; exact C). apply nth_error_upd_other. intros K. apply Hk. left. auto.
Qed.
End Sub.

Lemma omapl_index {A} (v : list A) : forall l, Forall (fun i => Z.to_nat i < length v) l -> exists r, omapl (index v) l = Ok r /\ length r = length l /\
  forall k i, nth_error l k = Some i -> nth_error r k = nth_error v (Z.to_nat i).
Proof.
  induction l as [|i l IH]; intros H.
  - exists []. split; [reflexivity|]. split; [reflexivity|]. intros [|k] i K; discriminate.
  - inversion H as [|? ? Hi H']; subst. destruct (IH H') as (r & E & L & N). destruct (nth_error v (Z.to_nat i)) as [x|] eqn:X; [|apply nth_error_None in X; lia].
    exists (x :: r). cbn [omapl]. unfold index at 1. rewrite X. cbn [obind]. rewrite E. cbn [obind]. split; [reflexivity|]. split; [cbn; lia|]. intros [|k] j K; [injection K as <-; rewrite X; reflexivity|exact (N k j K)].
Qed.
Lemma in_combine_nth {A B} : forall (a : list A) (b : list B) x y, In (x, y) (combine a b) -> exists k, nth_error a k = Some x /\ nth_error b k = Some y.
Proof. induction a as [|p a IH]; intros [|q b] x y H; try destruct H as []. - injection H as -> ->. exists 0. auto. - destruct (IH _ _ _ H) as (k & K1 & K2). exists (S k). auto. Qed.
Lemma combine_nth_in {A B} : forall (a : list A) (b : list B) x y k, nth_error a k = Some x -> nth_error b k = Some y -> In (x, y) (combine a b).
Proof. induction a as [|p a IH]; intros [|q b] x y [|k] H K; try discriminate; cbn in *; [left; congruence|right; eauto]. Qed.
Lemma map_fst_combine {A B} : forall (a : list A) (b : list B), length a = length b -> map fst (combine a b) = a.
Proof. induction a as [|x a IH]; intros [|y b] L; try discriminate; cbn in *; [reflexivity|f_equal; apply IH; lia]. Qed.

Lemma flat_bound (x y n m : Z) : (0 <= x < n -> 0 <= y < m -> 0 <= x * m + y < n * m)%Z.
Proof. intros. nia. Qed.
Lemma flat_eq (x y x' y' m : Z) : (0 <= y < m -> 0 <= y' < m -> x * m + y = x' * m + y' -> x = x' /\ y = y')%Z.
Proof. intros A B E. assert (x = x')%Z by nia. subst. lia. Qed.
(* positions and sizes for which nothing overflows *)
Definition sane (n m h p0 p1 : Z) : Prop := (n * m < two64 /\ 0 <= h < 2 ^ 28 /\ - 2 ^ 62 < p0 < 2 ^ 62 /\ - 2 ^ 62 < p1 < 2 ^ 62)%Z.
Section Square.
Context {F : Type}.
Variables (psf : img F) (h : Z).
Hypothesis Wp : wf psf.
Hypothesis Hn : (Z.of_nat (nr psf) = 2 * h + 1 /\ Z.of_nat (nc psf) = 2 * h + 1)%Z.
Lemma region_ok p0 p1 n m : sane n m h p0 p1 -> region psf p0 p1 = Ok [p0 - h; p1 - h; p0 + h; p1 + h]%Z.
Proof.
  intros (_ & Hh & P0 & P1). unfold region. destruct Hn as [-> ->]. replace ((2 * h + 1) / 2)%Z with h by (rewrite Z.add_comm, Z.mul_comm, Z.div_add by lia; reflexivity).
  rewrite !signed64_id by (unfold two63; lia). reflexivity.
Qed.
Lemma srcsub_ok (fsub fmul : F -> F -> F) (im : img F) flux p0 p1 rest : wf im -> sane (Z.of_nat (nr im)) (Z.of_nat (nc im)) h p0 p1 ->
  exists r, srcsub fsub fmul im psf flux (p0 :: p1 :: rest) = Ok r /\ shows r (nr im) (nc im) (fun x y =>
    match px im x y, px psf (x - p0 + h) (y - p1 + h) with Some a, Some b => Some (fsub a (fmul flux b)) | a, None => a | None, _ => None end).
Proof.
  intros W S. unfold srcsub. cbn [position obind]. rewrite (region_ok _ _ _ _ S). cbn [obind]. destruct S as (S1 & Hh & P0 & P1).
  rewrite subregion_ids_spec; [|unfold two63; lia|unfold two63; lia|exact S1|left; replace (p0 + h - (p0 - h) + 1)%Z with (2 * h + 1)%Z by lia; replace (p1 + h - (p1 - h) + 1)%Z with (2 * h + 1)%Z by lia; unfold two64; clear - Hh; nia]. cbn [obind].
  set (ps := overlap (nr im) (nc im) (p0 - h) (p1 - h) (p0 + h) (p1 + h)).
  assert (Hps : forall x y, In (x, y) ps <-> (0 <= x < Z.of_nat (nr im) /\ p0 - h <= x <= p0 + h /\ 0 <= y < Z.of_nat (nc im) /\ p1 - h <= y <= p1 + h)%Z) by (intros; apply overlap_in).
  assert (Nps : NoDup ps) by apply overlap_nodup. clearbody ps.
  assert (B1 : Forall (fun i => Z.to_nat i < length (pix im)) (map (fun p => fst p * Z.of_nat (nc im) + snd p)%Z ps)).
  { apply Forall_forall. intros i I. apply in_map_iff in I. destruct I as ([x y] & <- & I). apply Hps in I. cbn [fst snd]. rewrite W. apply Nat2Z.inj_lt. pose proof (flat_bound x y (Z.of_nat (nr im)) (Z.of_nat (nc im)) ltac:(lia) ltac:(lia)) as K. rewrite Z2Nat.id, Nat2Z.inj_mul by exact (proj1 K). exact (proj2 K). }
  assert (B2 : Forall (fun i => Z.to_nat i < length (pix psf)) (map (fun p => (fst p - (p0 - h)) * (p1 + h - (p1 - h) + 1) + (snd p - (p1 - h)))%Z ps)).
  { apply Forall_forall. intros i I. apply in_map_iff in I. destruct I as ([x y] & <- & I). apply Hps in I. cbn [fst snd]. rewrite Wp. apply Nat2Z.inj_lt. replace (p1 + h - (p1 - h) + 1)%Z with (2 * h + 1)%Z by lia. pose proof (flat_bound (x - (p0 - h)) (y - (p1 - h)) (2 * h + 1) (2 * h + 1) ltac:(lia) ltac:(lia)) as K. rewrite Z2Nat.id, Nat2Z.inj_mul by exact (proj1 K). destruct Hn as [-> ->]. exact (proj2 K). }
  destruct (omapl_index _ _ B1) as (r1 & E1 & _). rewrite E1. cbn [obind]. destruct (omapl_index _ _ B2) as (s & E2 & Ls & Ns). rewrite E2. cbn [obind]. rewrite map_length in Ls.
  assert (Inj : forall p q, In p ps -> In q ps -> Z.to_nat (fst p * Z.of_nat (nc im) + snd p) = Z.to_nat (fst q * Z.of_nat (nc im) + snd q) -> p = q).
  { intros [x y] [x' y'] I I' E. apply Hps in I, I'. cbn [fst snd] in E. apply (f_equal Z.of_nat) in E. rewrite !Z2Nat.id in E by (apply (flat_bound _ _ (Z.of_nat (nr im))); lia).
    destruct (flat_eq x y x' y' (Z.of_nat (nc im)) ltac:(lia) ltac:(lia) E) as [-> ->]. reflexivity. }
  destruct (sub_fold fsub fmul flux (combine (map (fun p => fst p * Z.of_nat (nc im) + snd p)%Z ps) s) (pix im)) as (d & Ed & Ld & In1 & Out).
  { rewrite <- (map_map fst Z.to_nat), map_fst_combine by (rewrite map_length; lia). rewrite map_map. clear - Nps Inj. induction Nps as [|p ps Np N IH]; [constructor|]. cbn [map]. constructor.
    - intros I. apply in_map_iff in I. destruct I as (q & E & I). apply Np. rewrite (Inj p q); [exact I|left; reflexivity|right; exact I|symmetry; exact E].
    - apply IH. intros a b Ia Ib. apply Inj; right; assumption. }
  { apply Forall_forall. intros [i v] I. apply in_combine_l in I. rewrite Forall_forall in B1. exact (B1 i I). }
  rewrite Ed. cbn [obind]. eexists. split; [reflexivity|]. split; [reflexivity|]. split; [reflexivity|]. split; [unfold wf; cbn; rewrite Ld; exact W|].
  intros x y Hx Hy. rewrite (px_in_Z (Img (nr im) (nc im) d)) by (cbn; assumption). cbn [pix nc]. rewrite (px_in_Z im) by assumption.
  assert (Lt : Z.to_nat x * nc im + Z.to_nat y < length (pix im)) by (rewrite W; apply Nat2Z.inj_lt; rewrite Nat2Z.inj_add, !Nat2Z.inj_mul, !Z2Nat.id by lia; apply flat_bound; assumption).
  assert (Ei : Z.to_nat x * nc im + Z.to_nat y = Z.to_nat (x * Z.of_nat (nc im) + y)) by (apply Nat2Z.inj; rewrite Z2Nat.id by (apply (flat_bound x y (Z.of_nat (nr im))); assumption); rewrite Nat2Z.inj_add, Nat2Z.inj_mul, !Z2Nat.id by lia; reflexivity).
  destruct (nth_error (pix im) (Z.to_nat x * nc im + Z.to_nat y)) as [a|] eqn:Ea; [|apply nth_error_None in Ea; lia].
  destruct (Z_le_dec (p0 - h) x) as [C1|C1]; [destruct (Z_le_dec x (p0 + h)) as [C2|C2]; [destruct (Z_le_dec (p1 - h) y) as [C3|C3]; [destruct (Z_le_dec y (p1 + h)) as [C4|C4]|]|]|].
  - assert (I : In (x, y) ps) by (apply Hps; lia). apply In_nth_error in I. destruct I as (k & K).
    rewrite px_in_Z by (destruct Hn; lia).
    assert (K1 : nth_error (map (fun p => fst p * Z.of_nat (nc im) + snd p)%Z ps) k = Some (x * Z.of_nat (nc im) + y)%Z) by (rewrite nth_error_map, K; reflexivity).
    specialize (Ns k _ ltac:(rewrite nth_error_map, K; reflexivity)). cbn [fst snd] in Ns.
    assert (Ej : Z.to_nat ((x - (p0 - h)) * (p1 + h - (p1 - h) + 1) + (y - (p1 - h))) = Z.to_nat (x - p0 + h) * nc psf + Z.to_nat (y - p1 + h)).
    { replace (p1 + h - (p1 - h) + 1)%Z with (2 * h + 1)%Z by lia. apply Nat2Z.inj. rewrite Z2Nat.id by (apply (flat_bound _ _ (2 * h + 1)); lia). rewrite Nat2Z.inj_add, Nat2Z.inj_mul, !Z2Nat.id by lia. destruct Hn as [_ ->]. replace (x - (p0 - h))%Z with (x - p0 + h)%Z by lia. lia. }
    rewrite Ej in Ns. assert (Lp : Z.to_nat (x - p0 + h) * nc psf + Z.to_nat (y - p1 + h) < length (pix psf)).
    { rewrite <- Ej. rewrite Forall_forall in B2. apply B2. apply in_map_iff. exists (x, y). split; [reflexivity|]. eapply nth_error_In; exact K. }
    destruct (nth_error (pix psf) (Z.to_nat (x - p0 + h) * nc psf + Z.to_nat (y - p1 + h))) as [b|] eqn:Eb; [|apply nth_error_None in Eb; lia].
    rewrite Ei. apply In1; [eapply combine_nth_in; eassumption|rewrite <- Ei; exact Ea].
  - rewrite Out; [rewrite px_out by (destruct Hn; lia); exact Ea|]. rewrite <- (map_map fst Z.to_nat), map_fst_combine by (rewrite map_length; lia). rewrite map_map. intros I. apply in_map_iff in I. destruct I as ([x' y'] & E & I). rewrite Ei in E. cbn [fst snd] in E. pose proof I as I'. apply Hps in I'. apply (f_equal Z.of_nat) in E. rewrite !Z2Nat.id in E by (apply (flat_bound _ _ (Z.of_nat (nr im))); lia). apply flat_eq in E; lia.
  - rewrite Out; [rewrite px_out by (destruct Hn; lia); exact Ea|]. rewrite <- (map_map fst Z.to_nat), map_fst_combine by (rewrite map_length; lia). rewrite map_map. intros I. apply in_map_iff in I. destruct I as ([x' y'] & E & I). rewrite Ei in E. cbn [fst snd] in E. pose proof I as I'. apply Hps in I'. apply (f_equal Z.of_nat) in E. rewrite !Z2Nat.id in E by (apply (flat_bound _ _ (Z.of_nat (nr im))); lia). apply flat_eq in E; lia.
  - rewrite Out; [rewrite px_out by (destruct Hn; lia); exact Ea|]. rewrite <- (map_map fst Z.to_nat), map_fst_combine by (rewrite map_length; lia). rewrite map_map. intros I. apply in_map_iff in I. destruct I as ([x' y'] & E & I). rewrite Ei in E. cbn [fst snd] in E. pose proof I as I'. apply Hps in I'. apply (f_equal Z.of_nat) in E. rewrite !Z2Nat.id in E by (apply (flat_bound _ _ (Z.of_nat (nr im))); lia). apply flat_eq in E; lia.
  - rewrite Out; [rewrite px_out by (destruct Hn; lia); exact Ea|]. rewrite <- (map_map fst Z.to_nat), map_fst_combine by (rewrite map_length; lia). rewrite map_map. intros I. apply in_map_iff in I. destruct I as ([x' y'] & E & I). rewrite Ei in E. cbn [fst snd] in E. pose proof I as I'. apply Hps in I'. apply (f_equal Z.of_nat) in E. rewrite !Z2Nat.id in E by (apply (flat_bound _ _ (Z.of_nat (nr im))); lia). apply flat_eq in E; lia.
Qed.
End Square.
