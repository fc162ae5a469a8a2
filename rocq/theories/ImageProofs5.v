(* Lemmas on image operations, part 5: convolution. *)
From Coq Require Import NArith ZifyBool ZifyNat.
From Verif Require Import Base IndexModel IndexProofs VecModel VecProofs VecProofs2 ImageModel ImageSpec
  ImageProofs ImageProofs2 ImageProofs3.

Lemma ofold_UB {B S} (f : S -> B -> outcome S) (I : S -> Prop) l b : forall s,
  I s -> In b l -> (forall s, I s -> f s b = UB) ->
  (forall s c, I s -> In c l -> f s c = UB \/ exists s', f s c = Ok s' /\ I s') -> ofold f l s = UB.
Proof.
  induction l as [|c l IH]; intros s Is Hi Hb Hc; [contradiction|]. cbn [ofold].
  destruct (Hc s c Is (or_introl eq_refl)) as [E|(s' & E & I')]; rewrite E; [reflexivity|]. cbn [obind].
  destruct Hi as [->|Hi]; [rewrite Hb in E by exact Is; discriminate|].
  apply IH; auto. intros s0 c0 I0 H0. apply Hc; [exact I0|right; exact H0].
Qed.
Lemma ofold_total {B S} (f : S -> B -> outcome S) (I : S -> Prop) l : forall s,
  I s -> (forall s c, I s -> In c l -> f s c = UB \/ exists s', f s c = Ok s' /\ I s') ->
  ofold f l s = UB \/ exists s', ofold f l s = Ok s' /\ I s'.
Proof.
  induction l as [|c l IH]; intros s Is Hc; [right; exists s; auto|]. cbn [ofold].
  destruct (Hc s c Is (or_introl eq_refl)) as [E|(s' & E & I')]; rewrite E; [left; reflexivity|]. cbn [obind].
  apply IH; auto. intros s0 c0 I0 H0. apply Hc; [exact I0|right; exact H0].
Qed.

Lemma fold_left_map {S B C} (f : S -> C -> S) (g : B -> C) : forall l s,
  fold_left f (map g l) s = fold_left (fun s b => f s (g b)) l s.
Proof. induction l as [|b l IH]; intros s; cbn [map fold_left]; [reflexivity|]. apply IH. Qed.

Section C.
Context {R : Type} (rO : R) (radd rmul : R -> R -> R) (zerob : R -> bool).

(* adding to distinct positions *)
Lemma add_all {P} (pos : P -> nat) (val : P -> R) : forall ps (d : list R),
  NoDup ps -> (forall p, In p ps -> pos p < length d) ->
  (forall p q, In p ps -> In q ps -> pos p = pos q -> p = q) ->
  exists d', ofold (fun d p => o <- oget d (pos p) ;; oset d (pos p) (radd o (val p))) ps d = Ok d' /\ length d' = length d /\
    (forall k, (forall p, In p ps -> pos p <> k) -> nth_error d' k = nth_error d k) /\
    (forall p o, In p ps -> nth_error d (pos p) = Some o -> nth_error d' (pos p) = Some (radd o (val p))).
Proof.
  induction ps as [|p ps IH]; intros d N H Hi.
  - exists d. cbn [ofold]. split; [reflexivity|]. split; [reflexivity|]. split; [auto|]. intros p o [].
  - inversion N as [|? ? N1 N2]; subst. cbn [ofold]. pose proof (H p (or_introl eq_refl)) as Hp.
    unfold oget at 1. destruct (nth_error d (pos p)) as [o|] eqn:Eo; [|apply nth_error_None in Eo; lia]. cbn [obind].
    unfold oset at 1. destruct (Nat.ltb_spec (pos p) (length d)); [|lia]. cbn [obind].
    destruct (IH (upd d (pos p) (radd o (val p)))) as (d' & E & L & O & S); auto.
    { intros q Hq. rewrite upd_length. apply H. right; exact Hq. }
    { intros q r Hq Hr. apply Hi; right; assumption. }
    exists d'. split; [exact E|]. split; [rewrite L; apply upd_length|]. split.
    + intros k Hk. rewrite O by (intros q Hq; apply Hk; right; exact Hq).
      apply nth_error_upd_other. intro C. apply (Hk p); [left; reflexivity|congruence].
    + intros q o' Hq Eq. destruct Hq as [<-|Hq].
      * rewrite O.
        -- rewrite nth_error_upd_same by lia. congruence.
        -- intros r Hr C. assert (r = p) by (apply Hi; simpl; auto). subst. contradiction.
      * apply S; [exact Hq|]. rewrite nth_error_upd_other; [exact Eq|].
        intro C. assert (q = p) by (apply Hi; simpl; auto). subst. contradiction.
Qed.

Lemma grid_Z n m : list_prod (ints 0 (Z.of_nat n)) (ints 0 (Z.of_nat m)) =
  map (fun p => (Z.of_nat (fst p), Z.of_nat (snd p))) (grid n m).
Proof.
  assert (IS : forall a, ints 0 (Z.of_nat a) = map Z.of_nat (seq 0 a)).
  { intros a. unfold ints. replace (Z.to_nat (Z.of_nat a - 0)) with a by lia. apply map_ext. intros; lia. }
  rewrite !IS. unfold grid. generalize (seq 0 n) (seq 0 m). clear. intros l l'.
  induction l as [|a l IH]; cbn [list_prod map]; [reflexivity|]. rewrite map_app, IH, !map_map. reflexivity.
Qed.

Context (map_ ker : img R) (Wm : wf map_) (Wk : wf ker).
Let hx := Z.of_nat (nr ker / 2).
Let hy := Z.of_nat (nc ker / 2).
Let nx := Z.of_nat (nr map_).
Let ny := Z.of_nat (nc map_).

Definition term (x y : Z) (k : nat * nat) : R :=
  rmul (px0 rO map_ (x - Z.of_nat (fst k) + hx) (y - Z.of_nat (snd k) + hy)) (px0 rO ker (Z.of_nat (fst k)) (Z.of_nat (snd k))).

Definition body (d : list R) (k : nat * nat) : outcome (list R) :=
  let '(kx, ky) := k in
  kw <- pget ker kx ky ;;
  if zerob kw then Ok d
  else
    let kx := Z.of_nat kx in let ky := Z.of_nat ky in
    ofold (fun d '(x, y) =>
        a <- pget map_ (Z.to_nat x) (Z.to_nat y) ;;
        let p := Z.to_nat (wrap64 ((x + kx - hx) * Z.of_nat (nc map_) + (y + ky - hy))) in
        o <- oget d p ;; oset d p (radd o (rmul a kw)))
      (list_prod (zseq (low kx hx) (high nx kx hx)) (zseq (low ky hy) (high ny ky hy))) d.

Lemma naive_body : convolve2d_naive rO radd rmul zerob map_ ker =
  (_ <- check ((nr ker mod 2 =? 1) && (nc ker mod 2 =? 1)) ;;
   d <- ofold body (grid (nr ker) (nc ker)) (repeat rO (nr map_ * nc map_)) ;;
   Ok (Img (nr map_) (nc map_) d)).
Proof. reflexivity. Qed.

Section Good.
Context (add0 : forall a, radd a rO = a) (mul0 : forall a, rmul a rO = rO) (mul0' : forall a, rmul rO a = rO)
  (Hz : forall a, zerob a = true -> a = rO)
  (Fm : (nx * ny < two64)%Z) (Fx : (nx < two64)%Z) (Fy : (ny < two64)%Z)
  (Hx : (hx <= nx)%Z) (Hy : (hy <= ny)%Z) (Ox : nr ker mod 2 = 1) (Oy : nc ker mod 2 = 1).

Lemma body_spec d kx ky : length d = nr map_ * nc map_ -> kx < nr ker -> ky < nc ker ->
  exists d', body d (kx, ky) = Ok d' /\ length d' = length d /\
    forall x y o, x < nr map_ -> y < nc map_ -> nth_error d (x * nc map_ + y) = Some o ->
      nth_error d' (x * nc map_ + y) = Some (radd o (term (Z.of_nat x) (Z.of_nat y) (kx, ky))).
Proof.
  intros L Hkx Hky. unfold body.
  destruct (pget_some ker kx ky Wk Hkx Hky) as (kw & Ek & Pk). rewrite Ek. cbn [obind].
  assert (TK : forall x y, term x y (kx, ky) = rmul (px0 rO map_ (x - Z.of_nat kx + hx) (y - Z.of_nat ky + hy)) kw).
  { intros x y. unfold term. cbn [fst snd]. unfold px0 at 2. rewrite Pk. reflexivity. }
  destruct (zerob kw) eqn:Ez.
  { exists d. split; [reflexivity|]. split; [reflexivity|]. intros x y o _ _ H.
    rewrite TK. rewrite (Hz kw Ez), mul0, add0. exact H. }
  assert (KX : (Z.of_nat kx <= 2 * hx)%Z).
  { unfold hx. pose proof (Nat.div_mod (nr ker) 2 ltac:(lia)). lia. }
  assert (KY : (Z.of_nat ky <= 2 * hy)%Z).
  { unfold hy. pose proof (Nat.div_mod (nc ker) 2 ltac:(lia)). lia. }
  set (zx := Z.of_nat kx) in *. set (zy := Z.of_nat ky) in *.
  assert (RX : forall x, In x (zseq (low zx hx) (high nx zx hx)) <-> (0 <= x < nx /\ 0 <= x + zx - hx < nx)%Z).
  { intros x. change zseq with ints. rewrite ints_in. unfold low, high. destruct (Z.leb_spec hx zx); rewrite wrap64_id; unfold nx, zx in *; lia. }
  assert (RY : forall y, In y (zseq (low zy hy) (high ny zy hy)) <-> (0 <= y < ny /\ 0 <= y + zy - hy < ny)%Z).
  { intros y. change zseq with ints. rewrite ints_in. unfold low, high. destruct (Z.leb_spec hy zy); rewrite wrap64_id; unfold ny, zy in *; lia. }
  set (ps := list_prod _ _).
  assert (RP : forall p, In p ps <-> (0 <= fst p < nx /\ 0 <= fst p + zx - hx < nx /\ 0 <= snd p < ny /\ 0 <= snd p + zy - hy < ny)%Z).
  { intros [x y]. unfold ps. rewrite in_prod_iff, RX, RY. cbn [fst snd]. tauto. }
  set (pos := fun p : Z * Z => Z.to_nat (fst p + zx - hx) * nc map_ + Z.to_nat (snd p + zy - hy)).
  destruct (add_all pos (fun p => rmul (nth (Z.to_nat (fst p) * nc map_ + Z.to_nat (snd p)) (pix map_) rO) kw) ps d)
    as (d' & E & L' & O & S).
  - apply NoDup_list_prod; apply ints_nodup.
  - intros [x y] Hp. apply RP in Hp. cbn [fst snd] in Hp. unfold pos. cbn [fst snd]. rewrite L. unfold nx, ny in *. apply pos_lt; lia.
  - intros [x y] [x' y'] Hp Hq. apply RP in Hp, Hq. cbn [fst snd] in *. unfold pos. cbn [fst snd]. intros C.
    unfold nx, ny in *. apply pos_inj in C; [|lia|lia]. f_equal; lia.
  - exists d'. split; [|split; [exact L'|]].
    + rewrite <- E. apply (ofold_ext _ _ (fun _ => True)); auto. intros s [x y] _ Hp. apply RP in Hp. cbn [fst snd] in Hp.
      cbn [fst snd]. unfold pget, oget at 1. unfold nx, ny in *.
      destruct (total_px map_ Wm (Z.to_nat x) (Z.to_nat y)) as (a & Ea); [lia|lia|]. rewrite Ea. cbn [obind].
      rewrite (nth_error_nth _ _ _ Ea).
      assert (EP : Z.to_nat (wrap64 ((x + zx - hx) * Z.of_nat (nc map_) + (y + zy - hy))) = pos (x, y)).
      { rewrite wrap64_id. - unfold pos. cbn [fst snd]. apply zpos_nat; lia.
        - pose proof (zpos_bound (Z.of_nat (nr map_)) (Z.of_nat (nc map_)) (x + zx - hx) (y + zy - hy)). lia. }
      rewrite EP. reflexivity.
    + intros x y o Hxx Hyy Eo. rewrite TK. unfold px0.
      set (sx := (Z.of_nat x - zx + hx)%Z). set (sy := (Z.of_nat y - zy + hy)%Z).
      destruct (In_dec prod_eq_dec' (sx, sy) ps) as [H|H].
      * pose proof (S (sx, sy) o H) as S'. apply RP in H. cbn [fst snd] in *.
        assert (EP : pos (sx, sy) = x * nc map_ + y).
        { unfold pos. cbn [fst snd]. unfold sx, sy. f_equal; [f_equal|]; lia. }
        rewrite EP in S'. rewrite (S' Eo). f_equal. f_equal. rewrite px_in_Z by (unfold nx, ny in *; lia).
        destruct (total_px map_ Wm (Z.to_nat sx) (Z.to_nat sy)) as (a & Ea); [unfold nx, ny in *; lia..|].
        rewrite Ea. rewrite (nth_error_nth _ _ _ Ea). reflexivity.
      * rewrite px_out; [|intro C; apply H; apply RP; cbn [fst snd]; unfold nx, ny, sx, sy in *; lia].
        rewrite mul0', add0. rewrite O; [exact Eo|]. intros [x' y'] Hq C.
        apply H. apply RP in Hq as Hq'. cbn [fst snd] in Hq'. unfold pos in C. cbn [fst snd] in C.
        apply pos_inj in C; [|unfold ny in *; lia|lia].
        replace (sx, sy) with (x', y'); [exact Hq|]. unfold sx, sy. f_equal; lia.
Qed.

Lemma bodies_spec : forall ks d, length d = nr map_ * nc map_ ->
  (forall k, In k ks -> fst k < nr ker /\ snd k < nc ker) ->
  exists d', ofold body ks d = Ok d' /\ length d' = length d /\
    forall x y o, x < nr map_ -> y < nc map_ -> nth_error d (x * nc map_ + y) = Some o ->
      nth_error d' (x * nc map_ + y) = Some (fold_left (fun s k => radd s (term (Z.of_nat x) (Z.of_nat y) k)) ks o).
Proof.
  induction ks as [|[kx ky] ks IH]; intros d L Hk.
  - exists d. split; [reflexivity|]. split; [reflexivity|]. intros x y o _ _ H. exact H.
  - destruct (Hk (kx, ky) (or_introl eq_refl)) as (K1 & K2). cbn [fst snd] in K1, K2.
    destruct (body_spec d kx ky L K1 K2) as (d1 & E1 & L1 & S1). cbn [ofold]. rewrite E1. cbn [obind].
    destruct (IH d1) as (d' & E & L' & S); [congruence|intros k Hkk; apply Hk; right; exact Hkk|].
    exists d'. split; [exact E|]. split; [congruence|]. intros x y o Hxx Hyy Eo. cbn [fold_left].
    apply S; auto.
Qed.

Lemma naive_spec : exists w, convolve2d_naive rO radd rmul zerob map_ ker = Ok w /\
  shows w (nr map_) (nc map_) (fun x y => Some (conv rO radd rmul map_ ker x y)).
Proof.
  rewrite naive_body. rewrite Ox, Oy. cbn [Nat.eqb andb check obind].
  destruct (bodies_spec (grid (nr ker) (nc ker)) (repeat rO (nr map_ * nc map_))) as (d' & E & L & S).
  - apply repeat_length.
  - intros [kx ky] Hk. apply in_grid in Hk. exact Hk.
  - rewrite E. cbn [obind]. eexists. split; [reflexivity|]. rewrite repeat_length in L.
    apply shows_nat; cbn [nr nc pix]; [reflexivity|reflexivity|exact L|].
    intros x y Hxx Hyy. rewrite (S x y rO Hxx Hyy) by (apply nth_error_repeat; apply pos_lt; assumption).
    f_equal. unfold conv, kernel_pixels. rewrite grid_Z.
    unfold term, hx, hy. rewrite !Nat2Z.inj_div. change (Z.of_nat 2) with 2%Z.
    rewrite fold_left_map. reflexivity.
Qed.
End Good.

(* ---- kernels larger than the image ---- *)
Lemma body_total d k : length d = nr map_ * nc map_ ->
  body d k = UB \/ exists d', body d k = Ok d' /\ length d' = nr map_ * nc map_.
Proof.
  intros L. destruct k as [kx ky]. unfold body.
  assert (E : pget ker kx ky = UB \/ exists kw, pget ker kx ky = Ok kw).
  { unfold pget, oget. destruct (nth_error (pix ker) (kx * nc ker + ky)); eauto. }
  destruct E as [E|(kw & E)]; rewrite E; cbn [obind]; [left; reflexivity|]. clear E.
  destruct (zerob kw); [right; exists d; auto|].
  apply (ofold_total _ (fun d => length d = nr map_ * nc map_)); [exact L|].
  intros s [x y] Ls _. unfold pget, oget.
  destruct (nth_error (pix map_) (Z.to_nat x * nc map_ + Z.to_nat y)) as [a|]; cbn [obind]; [|left; reflexivity].
  set (p := Z.to_nat _). destruct (nth_error s p) as [o|]; cbn [obind]; [|left; reflexivity].
  unfold oset. destruct (p <? length s); [|left; reflexivity]. right. eexists. split; [reflexivity|]. rewrite upd_length. exact Ls.
Qed.

Lemma naive_UB : fits (nr map_) (nc map_) -> (Z.of_nat (nr ker) < two64)%Z -> (Z.of_nat (nc ker) < two64)%Z ->
  0 < nr map_ -> 0 < nc map_ -> nr ker mod 2 = 1 -> nc ker mod 2 = 1 ->
  (nx < hx)%Z \/ (ny < hy)%Z ->
  (forall x y a, px ker x y = Some a -> zerob a = false) ->
  convolve2d_naive rO radd rmul zerob map_ ker = UB.
Proof.
  intros (F1 & F2 & F3) B1 B2 P1 P2 Ox Oy Hbig Hnz. rewrite naive_body. rewrite Ox, Oy. cbn [Nat.eqb andb check obind].
  pose proof (Nat.div_mod (nr ker) 2 ltac:(lia)) as DX. pose proof (Nat.div_mod (nc ker) 2 ltac:(lia)) as DY.
  rewrite Ox in DX. rewrite Oy in DY. set (ax := nr ker / 2) in *. set (ay := nc ker / 2) in *.
  assert (T64 : two64 = 18446744073709551616%Z) by reflexivity.
  assert (INNER : forall kx ky x y, kx < nr ker -> ky < nc ker ->
     In (x, y) (list_prod (zseq (low (Z.of_nat kx) hx) (high nx (Z.of_nat kx) hx)) (zseq (low (Z.of_nat ky) hy) (high ny (Z.of_nat ky) hy))) ->
     (nr map_ * nc map_ <= Z.to_nat x * nc map_ + Z.to_nat y \/
      nr map_ * nc map_ <= Z.to_nat (wrap64 ((x + Z.of_nat kx - hx) * Z.of_nat (nc map_) + (y + Z.of_nat ky - hy)))) ->
     ofold body (grid (nr ker) (nc ker)) (repeat rO (nr map_ * nc map_)) = UB).
  { intros kx ky x y K1 K2 IN BAD.
    apply (ofold_UB body (fun d => length d = nr map_ * nc map_) _ (kx, ky)).
    - apply repeat_length.
    - apply in_grid. auto.
    - intros s Ls. unfold body.
      destruct (pget_some ker kx ky Wk K1 K2) as (kw & Ek & Pk). rewrite Ek. cbn [obind]. rewrite (Hnz _ _ _ Pk).
      apply (ofold_UB _ (fun d => length d = nr map_ * nc map_) _ (x, y)); [exact Ls|exact IN| |].
      + intros s' Ls'. unfold pget, oget. destruct BAD as [BAD|BAD].
        * rewrite (proj2 (nth_error_None (pix map_) _)); [reflexivity|]. unfold wf in Wm. lia.
        * destruct (nth_error (pix map_) (Z.to_nat x * nc map_ + Z.to_nat y)); [|reflexivity]. cbn [obind].
          rewrite (proj2 (nth_error_None s' _)); [reflexivity|]. lia.
      + intros s' [x' y'] Ls' _. unfold pget, oget.
        destruct (nth_error (pix map_) (Z.to_nat x' * nc map_ + Z.to_nat y')) as [a|]; cbn [obind]; [|left; reflexivity].
        set (p := Z.to_nat (wrap64 _)). destruct (nth_error s' p) as [o|]; cbn [obind]; [|left; reflexivity].
        unfold oset. destruct (p <? length s'); [|left; reflexivity]. right. eexists. split; [reflexivity|]. rewrite upd_length. exact Ls'.
    - intros s k Ls _. apply body_total. exact Ls. }
  assert (HX : hx = Z.of_nat ax) by reflexivity. assert (HY : hy = Z.of_nat ay) by reflexivity.
  destruct Hbig as [Hbig|Hbig].
  - rewrite (INNER (2 * ax) ay (Z.of_nat (nr map_)) 0%Z); [reflexivity|lia|lia| |].
    + apply in_prod_iff. change zseq with ints. rewrite !ints_in. unfold low, high. 
      destruct (Z.leb_spec hx (Z.of_nat (2 * ax))), (Z.leb_spec hy (Z.of_nat ay)); try lia.
      replace (ny - (Z.of_nat ay - hy))%Z with ny by lia.
      rewrite (wrap64_id ny) by (unfold ny; lia).
      unfold wrap64. replace (nx - (Z.of_nat (2 * ax) - hx))%Z with (nx - hx + two64 + (-1) * two64)%Z by lia.
      rewrite Z.mod_add by lia. rewrite Z.mod_small by (unfold nx in *; lia). unfold nx, ny in *. lia.
    + left. rewrite Nat2Z.id. cbn [Z.to_nat]. lia.
  - rewrite (INNER ax (2 * ay) 0%Z (Z.of_nat (nr map_ * nc map_))); [reflexivity|lia|lia| |].
    + apply in_prod_iff. change zseq with ints. rewrite !ints_in. unfold low, high.
      destruct (Z.leb_spec hx (Z.of_nat ax)), (Z.leb_spec hy (Z.of_nat (2 * ay))); try lia.
      replace (nx - (Z.of_nat ax - hx))%Z with nx by lia.
      rewrite (wrap64_id nx) by (unfold nx; lia).
      unfold wrap64. replace (ny - (Z.of_nat (2 * ay) - hy))%Z with (ny - hy + two64 + (-1) * two64)%Z by lia.
      rewrite Z.mod_add by lia. rewrite Z.mod_small by (unfold ny in *; lia). unfold nx, ny in *. lia.
    + left. cbn [Z.to_nat]. lia.
Qed.
End C.
