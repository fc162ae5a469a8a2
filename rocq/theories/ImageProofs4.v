(* Lemmas on image operations, part 4: mask inflation. *)
From Coq Require Import NArith ZifyBool ZifyNat.
From Verif Require Import Base IndexModel IndexSpec IndexProofs VecModel VecProofs VecProofs2 ImageModel ImageSpec
  ImageProofs ImageProofs2 ImageProofs3.

Lemma kernel_in d a b : In (a, b) (kernel d) <-> (1 <= Z.abs a + Z.abs b <= Z.of_nat d)%Z.
Proof.
  unfold kernel. rewrite in_flat_map. split.
  - intros (k & Hk & H). apply in_seq in Hk. apply in_map_iff in H. destruct H as (l & E & Hl). apply in_seq in Hl.
    assert (K : (0 < Z.of_nat k)%Z) by lia.
    pose proof (Z.mod_pos_bound (Z.of_nat l) (Z.of_nat k) K) as MB.
    destruct (Z.ltb_spec (Z.of_nat l) (Z.of_nat k)), (Z.ltb_spec (Z.of_nat l) (2 * Z.of_nat k)),
      (Z.ltb_spec (Z.of_nat l) (3 * Z.of_nat k)); try lia; injection E as <- <-; lia.
  - intros H. exists (Z.to_nat (Z.abs a + Z.abs b)). split; [apply in_seq; lia|].
    set (k := Z.to_nat (Z.abs a + Z.abs b)). assert (K : Z.of_nat k = (Z.abs a + Z.abs b)%Z) by (unfold k; lia).
    assert (MOD : forall q e : Z, (0 <= e < Z.of_nat k)%Z -> ((e + q * Z.of_nat k) mod Z.of_nat k = e)%Z).
    { intros q e He. rewrite Z.mod_add by lia. apply Z.mod_small. exact He. }
    apply in_map_iff.
    assert (C : (0 < a /\ b <= 0 \/ a <= 0 /\ b < 0 \/ a < 0 /\ 0 <= b \/ 0 <= a /\ 0 < b)%Z) by lia.
    destruct C as [C|[C|[C|C]]].
    + exists (Z.to_nat (- b)). split; [|apply in_seq; lia].
      replace (Z.of_nat (Z.to_nat (- b))) with (- b + 0 * Z.of_nat k)%Z by lia. rewrite MOD by lia.
      destruct (Z.ltb_spec (- b + 0 * Z.of_nat k) (Z.of_nat k)); [f_equal; lia|lia].
    + exists (Z.to_nat (- a) + k). split; [|apply in_seq; lia].
      replace (Z.of_nat (Z.to_nat (- a) + k)) with (- a + 1 * Z.of_nat k)%Z by lia. rewrite MOD by lia.
      destruct (Z.ltb_spec (- a + 1 * Z.of_nat k) (Z.of_nat k)); [lia|].
      destruct (Z.ltb_spec (- a + 1 * Z.of_nat k) (2 * Z.of_nat k)); [f_equal; lia|lia].
    + exists (Z.to_nat b + 2 * k). split; [|apply in_seq; lia].
      replace (Z.of_nat (Z.to_nat b + 2 * k)) with (b + 2 * Z.of_nat k)%Z by lia. rewrite MOD by lia.
      destruct (Z.ltb_spec (b + 2 * Z.of_nat k) (Z.of_nat k)); [lia|].
      destruct (Z.ltb_spec (b + 2 * Z.of_nat k) (2 * Z.of_nat k)); [lia|].
      destruct (Z.ltb_spec (b + 2 * Z.of_nat k) (3 * Z.of_nat k)); [f_equal; lia|lia].
    + exists (Z.to_nat a + 3 * k). split; [|apply in_seq; lia].
      replace (Z.of_nat (Z.to_nat a + 3 * k)) with (a + 3 * Z.of_nat k)%Z by lia. rewrite MOD by lia.
      destruct (Z.ltb_spec (a + 3 * Z.of_nat k) (Z.of_nat k)); [lia|].
      destruct (Z.ltb_spec (a + 3 * Z.of_nat k) (2 * Z.of_nat k)); [lia|].
      destruct (Z.ltb_spec (a + 3 * Z.of_nat k) (3 * Z.of_nat k)); [lia|f_equal; lia].
Qed.

(* a true pixel with a false neighbour inside the image *)
Definition on m (x y : nat) : bool := match nth_error (pix m) (x * nc m + y) with Some b => b | None => false end.
Definition edge (m : img bool) (p : nat * nat) : bool :=
  let '(x, y) := p in
  on m x y && ((0 <? x) && negb (on m (x - 1) y) || (x <? nr m - 1) && negb (on m (x + 1) y) ||
               (0 <? y) && negb (on m x (y - 1)) || (y <? nc m - 1) && negb (on m x (y + 1))).

Lemma pget_on m x y : wf m -> x < nr m -> y < nc m -> pget m x y = Ok (on m x y).
Proof.
  intros W Hx Hy. unfold pget, on, oget. destruct (total_px m W x y Hx Hy) as (a & E). rewrite E. reflexivity.
Qed.

Lemma edge_ids_spec m : wf m ->
  edge_ids m = Ok (map (fun p => fst p * nc m + snd p) (filter (edge m) (grid (nr m) (nc m)))).
Proof.
  intros W. unfold edge_ids.
  assert (G : forall l acc, (forall p, In p l -> fst p < nr m /\ snd p < nc m) ->
     ofold (fun ids '(x, y) =>
    b <- pget m x y ;;
    if b then
      l <- (if 0 <? x then omap negb (pget m (x - 1) y) else Ok false) ;;
      r <- (if l then Ok true else if x <? nr m - 1 then omap negb (pget m (x + 1) y) else Ok false) ;;
      d <- (if r then Ok true else if 0 <? y then omap negb (pget m x (y - 1)) else Ok false) ;;
      u <- (if d then Ok true else if y <? nc m - 1 then omap negb (pget m x (y + 1)) else Ok false) ;;
      Ok (if u then ids ++ [x * nc m + y] else ids)
    else Ok ids) l acc = Ok (acc ++ map (fun p => fst p * nc m + snd p) (filter (edge m) l))).
  { induction l as [|[x y] l IH]; intros acc Hl; cbn [ofold].
    - cbn [filter map]. rewrite app_nil_r. reflexivity.
    - destruct (Hl (x, y) (or_introl eq_refl)) as (Hx & Hy). cbn [fst snd] in Hx, Hy.
      assert (Hl' : forall p, In p l -> fst p < nr m /\ snd p < nc m) by (intros p Hp; apply Hl; right; exact Hp).
      match goal with |- (s' <- ?body ;; _) = _ =>
        assert (E : body = Ok (if edge m (x, y) then acc ++ [x * nc m + y] else acc)) end.
      { rewrite pget_on by assumption. cbn [obind]. cbn [edge]. destruct (on m x y); [|reflexivity]. cbn [andb].
        replace (if 0 <? x then omap negb (pget m (x - 1) y) else Ok false)
          with (Ok ((0 <? x) && negb (on m (x - 1) y))).
        2: { destruct (Nat.ltb_spec 0 x); [rewrite pget_on by (try assumption; lia)|]; reflexivity. }
        cbn [obind]. set (b1 := (0 <? x) && _).
        replace (if x <? nr m - 1 then omap negb (pget m (x + 1) y) else Ok false)
          with (Ok ((x <? nr m - 1) && negb (on m (x + 1) y))).
        2: { destruct (Nat.ltb_spec x (nr m - 1)); [rewrite pget_on by (try assumption; lia)|]; reflexivity. }
        set (b2 := (x <? nr m - 1) && _).
        replace (if 0 <? y then omap negb (pget m x (y - 1)) else Ok false)
          with (Ok ((0 <? y) && negb (on m x (y - 1)))).
        2: { destruct (Nat.ltb_spec 0 y); [rewrite pget_on by (try assumption; lia)|]; reflexivity. }
        set (b3 := (0 <? y) && _).
        replace (if y <? nc m - 1 then omap negb (pget m x (y + 1)) else Ok false)
          with (Ok ((y <? nc m - 1) && negb (on m x (y + 1)))).
        2: { destruct (Nat.ltb_spec y (nc m - 1)); [rewrite pget_on by (try assumption; lia)|]; reflexivity. }
        set (b4 := (y <? nc m - 1) && _).
        destruct b1, b2, b3, b4; reflexivity. }
      rewrite E. cbn [obind]. rewrite IH by exact Hl'. cbn [filter].
      destruct (edge m (x, y)); [|reflexivity]. cbn [map fst snd]. rewrite <- app_assoc. reflexivity. }
  rewrite G; [reflexivity|]. intros [x y] Hp. apply in_grid in Hp. exact Hp.
Qed.

Lemma mult_ids_2 n m x y : x < n -> y < m -> mult_ids [n; m] (x * m + y) = Ok [x; y].
Proof.
  intros Hx Hy. destruct (mult_ids_spec [n; m] (x * m + y)) as (ids & E & R & M).
  { repeat constructor; lia. }
  rewrite E. f_equal. unfold in_range in R.
  inversion R as [|? a ? ? Ha R1]; subst. inversion R1 as [|? b ? ? Hb R2]; subst. inversion R2; subst.
  unfold row_major, nprod in M. cbn [horner fold_right] in M. rewrite Nat.mod_small in M.
  - cbn [Nat.mul Nat.add] in M. apply pos_inj in M; [|exact Hb|exact Hy]. destruct M as (-> & ->). reflexivity.
  - rewrite Nat.mul_1_r. apply pos_lt; assumption.
Qed.

Lemma ofold_flat_map {B C S} (g : S -> C -> outcome S) (f : B -> list C) l : forall s,
  ofold g (flat_map f l) s = ofold (fun s x => ofold g (f x) s) l s.
Proof.
  induction l as [|x l IH]; intros s; cbn [flat_map ofold]; [reflexivity|]. rewrite ofold_app.
  destruct (ofold g (f x) s); cbn [obind]; auto.
Qed.
Lemma ofold_filter {B S} (g : S -> B -> outcome S) (c : B -> bool) l : forall s,
  ofold (fun s x => if c x then g s x else Ok s) l s = ofold g (filter c l) s.
Proof.
  induction l as [|x l IH]; intros s; cbn [filter ofold]; [reflexivity|].
  destruct (c x); cbn [ofold]; [destruct (g s x); cbn [obind]; auto|cbn [obind]; auto].
Qed.

Lemma px_on m x y : wf m -> (0 <= x < Z.of_nat (nr m))%Z -> (0 <= y < Z.of_nat (nc m))%Z ->
  px m x y = Some (on m (Z.to_nat x) (Z.to_nat y)).
Proof.
  intros W Hx Hy. rewrite px_in_Z by assumption. unfold on.
  destruct (total_px m W (Z.to_nat x) (Z.to_nat y)) as (a & E); [lia|lia|]. rewrite E. reflexivity.
Qed.

Lemma inflate_sets m d : wf m -> 0 < d ->
  exists w, mask_inflate m d = Ok w /\ nr w = nr m /\ nc w = nc m /\ wf w /\
    forall x y, x < nr m -> y < nc m ->
      on w x y = true <-> (on m x y = true \/ exists ex ey, ex < nr m /\ ey < nc m /\ edge m (ex, ey) = true /\
        (1 <= Z.abs (Z.of_nat x - Z.of_nat ex) + Z.abs (Z.of_nat y - Z.of_nat ey) <= Z.of_nat d)%Z).
Proof.
  intros W Hd. unfold mask_inflate. destruct (Nat.eqb_spec d 0); [lia|].
  rewrite edge_ids_spec by exact W. cbn [obind].
  set (es := filter (edge m) (grid (nr m) (nc m))).
  assert (ES : forall p, In p es <-> fst p < nr m /\ snd p < nc m /\ edge m p = true).
  { intros [x y]. unfold es. rewrite filter_In, in_grid. cbn [fst snd]. tauto. }
  rewrite ofold_map.
  set (inr := fun t : Z * Z => ((0 <=? fst t) && (fst t <? Z.of_nat (nr m)) && (0 <=? snd t) && (snd t <? Z.of_nat (nc m)))%Z).
  set (tgt := fun p : nat * nat => filter inr (map (fun k => (Z.of_nat (fst p) + fst k, Z.of_nat (snd p) + snd k)%Z) (kernel d))).
  match goal with |- context [ofold ?f es (pix m)] =>
    assert (E : ofold f es (pix m) = ofold (fun s t => oset s (Z.to_nat (fst t) * nc m + Z.to_nat (snd t)) true) (flat_map tgt es) (pix m)) end.
  { rewrite ofold_flat_map. apply (ofold_ext _ _ (fun _ => True)); auto.
    intros s [x y] _ Hp. apply ES in Hp. cbn [fst snd] in *. destruct Hp as (Hx & Hy & _).
    rewrite mult_ids_2 by assumption. cbn [obind oget nth_error]. unfold tgt.
    rewrite <- (ofold_filter (fun s t => oset s (Z.to_nat (fst t) * nc m + Z.to_nat (snd t)) true) inr).
    rewrite ofold_map. apply (ofold_ext _ _ (fun _ => True)); auto. intros s' [a b] _ _. reflexivity. }
  rewrite E. clear E.
  destruct (write_all (fun t : Z * Z => Z.to_nat (fst t) * nc m + Z.to_nat (snd t)) (fun _ => true) (flat_map tgt es) (pix m))
    as (d' & E & L & O & S).
  { intros [a b] H. apply in_flat_map in H. destruct H as (p & _ & H). unfold tgt in H. apply filter_In in H.
    destruct H as (_ & H). unfold inr in H. cbn [fst snd] in *. unfold wf in W. rewrite W. apply pos_lt; lia. }
  rewrite E. cbn [obind]. eexists. split; [reflexivity|]. cbn [nr nc].
  split; [reflexivity|]. split; [reflexivity|]. split; [unfold wf in *; cbn [nr nc pix]; congruence|].
  assert (T : forall x y, x < nr m -> y < nc m ->
     ((exists t, In t (flat_map tgt es) /\ Z.to_nat (fst t) * nc m + Z.to_nat (snd t) = x * nc m + y) <->
      exists ex ey, ex < nr m /\ ey < nc m /\ edge m (ex, ey) = true /\
        (1 <= Z.abs (Z.of_nat x - Z.of_nat ex) + Z.abs (Z.of_nat y - Z.of_nat ey) <= Z.of_nat d)%Z)).
  { intros x y Hx Hy. split.
    - intros ([a b] & H & Eq). apply in_flat_map in H. destruct H as ([ex ey] & He & H). apply ES in He.
      unfold tgt in H. apply filter_In in H. destruct H as (H & I). apply in_map_iff in H.
      destruct H as ([ka kb] & Ek & Hk). cbn [fst snd] in *. injection Ek as <- <-. apply kernel_in in Hk.
      unfold inr in I. cbn [fst snd] in I. apply pos_inj in Eq; [|lia|lia].
      exists ex, ey. split; [tauto|]. split; [tauto|]. split; [tauto|]. lia.
    - intros (ex & ey & H1 & H2 & H3 & H4). exists (Z.of_nat x, Z.of_nat y). split.
      + apply in_flat_map. exists (ex, ey). split; [apply ES; auto|]. unfold tgt. apply filter_In.
        split; [|unfold inr; cbn [fst snd]; lia]. apply in_map_iff.
        exists (Z.of_nat x - Z.of_nat ex, Z.of_nat y - Z.of_nat ey)%Z. cbn [fst snd].
        split; [f_equal; lia|]. apply kernel_in. exact H4.
      + cbn [fst snd]. rewrite !Nat2Z.id. reflexivity. }
  intros x y Hx Hy. unfold on at 1. cbn [pix nc]. rewrite <- T by assumption.
  set (q := x * nc m + y).
  assert (D : (exists t, In t (flat_map tgt es) /\ Z.to_nat (fst t) * nc m + Z.to_nat (snd t) = q) \/
              (forall t, In t (flat_map tgt es) -> Z.to_nat (fst t) * nc m + Z.to_nat (snd t) <> q)).
  { clear. induction (flat_map tgt es) as [|a l IH]; [right; intros ? []|].
    destruct IH as [(t & H1 & H2)|IH]; [left; exists t; simpl; auto|].
    destruct (Nat.eq_dec (Z.to_nat (fst a) * nc m + Z.to_nat (snd a)) q) as [Ea|Ea]; [left; exists a; simpl; auto|].
    right. intros t [<-|H]; auto. }
  destruct D as [(t & H1 & H2)|D].
  - split; [intros _; right; exists t; auto|]. intros _. rewrite <- H2. rewrite (S t H1); auto.
  - rewrite O by exact D. split.
    + intros H. left. unfold on. exact H.
    + intros [H|(t & H1 & H2)]; [exact H|]. exfalso. exact (D t H1 H2).
Qed.

(* walking from a false pixel to a true one crosses an edge *)
Lemma walk m : forall k x y x' y', x < nr m -> y < nc m -> x' < nr m -> y' < nc m ->
  on m x y = false -> on m x' y' = true ->
  (Z.abs (Z.of_nat x - Z.of_nat x') + Z.abs (Z.of_nat y - Z.of_nat y') = Z.of_nat k)%Z ->
  exists ex ey, ex < nr m /\ ey < nc m /\ edge m (ex, ey) = true /\
    (1 <= Z.abs (Z.of_nat x - Z.of_nat ex) + Z.abs (Z.of_nat y - Z.of_nat ey) <= Z.of_nat k)%Z.
Proof.
  induction k as [|k IH]; intros x y x' y' Hx Hy Hx' Hy' F T D.
  - assert (x' = x) by lia. assert (y' = y) by lia. subst. congruence.
  - assert (STEP : forall x'' y'', x'' < nr m -> y'' < nc m ->
        (Z.abs (Z.of_nat x - Z.of_nat x'') + Z.abs (Z.of_nat y - Z.of_nat y'') = Z.of_nat k)%Z ->
        (on m x'' y'' = false -> edge m (x', y') = true) ->
        exists ex ey, ex < nr m /\ ey < nc m /\ edge m (ex, ey) = true /\
         (1 <= Z.abs (Z.of_nat x - Z.of_nat ex) + Z.abs (Z.of_nat y - Z.of_nat ey) <= Z.of_nat (S k))%Z).
    { intros x'' y'' H1 H2 D' He. destruct (on m x'' y'') eqn:E.
      - destruct (IH x y x'' y'' Hx Hy H1 H2 F E D') as (ex & ey & A1 & A2 & A3 & A4).
        exists ex, ey. repeat split; auto; lia.
      - exists x', y'. split; [exact Hx'|]. split; [exact Hy'|]. split; [apply He; reflexivity|]. lia. }
    assert (C : x < x' \/ x' < x \/ y < y' \/ y' < y) by lia.
    destruct C as [C|[C|[C|C]]].
    + apply (STEP (x' - 1) y'); [lia|lia|lia|]. intros E. cbn [edge]. rewrite T, E.
      destruct (Nat.ltb_spec 0 x'); [|lia]. reflexivity.
    + apply (STEP (x' + 1) y'); [lia|lia|lia|]. intros E. cbn [edge]. rewrite T, E.
      destruct (Nat.ltb_spec x' (nr m - 1)); [|lia]. cbn [negb andb]. rewrite !orb_true_r. reflexivity.
    + apply (STEP x' (y' - 1)); [lia|lia|lia|]. intros E. cbn [edge]. rewrite T, E.
      destruct (Nat.ltb_spec 0 y'); [|lia]. cbn [negb andb]. rewrite !orb_true_r. reflexivity.
    + apply (STEP x' (y' + 1)); [lia|lia|lia|]. intros E. cbn [edge]. rewrite T, E.
      destruct (Nat.ltb_spec y' (nc m - 1)); [|lia]. cbn [negb andb]. rewrite !orb_true_r. reflexivity.
Qed.

Lemma inflate_spec m d : wf m ->
  exists w, mask_inflate m d = Ok w /\ nr w = nr m /\ nc w = nc m /\ wf w /\
    forall x y, (0 <= x < Z.of_nat (nr m))%Z -> (0 <= y < Z.of_nat (nc m))%Z ->
      (px w x y = Some true <->
       exists x' y', px m x' y' = Some true /\ (Z.abs (x - x') + Z.abs (y - y') <= Z.of_nat d)%Z).
Proof.
  intros W.
  assert (PT : forall x' y', px m x' y' = Some true -> (0 <= x' < Z.of_nat (nr m) /\ 0 <= y' < Z.of_nat (nc m))%Z
     /\ on m (Z.to_nat x') (Z.to_nat y') = true).
  { intros x' y' H. destruct (Z.leb_spec 0 x'), (Z.ltb_spec x' (Z.of_nat (nr m))), (Z.leb_spec 0 y'), (Z.ltb_spec y' (Z.of_nat (nc m)));
      try (rewrite px_out in H by lia; discriminate).
    rewrite px_on in H by (try assumption; lia). split; [lia|congruence]. }
  destruct (Nat.eq_dec d 0) as [->|Hd].
  - exists m. split; [reflexivity|]. repeat split; auto.
    + intros H1. exists x, y. split; [exact H1|lia].
    + intros (x' & y' & H1 & H2). replace x with x' by lia. replace y with y' by lia. exact H1.
  - destruct (inflate_sets m d W ltac:(lia)) as (w & E & W1 & W2 & W3 & S).
    exists w. split; [exact E|]. split; [exact W1|]. split; [exact W2|]. split; [exact W3|].
    intros x y Hx Hy. rewrite px_on by (try assumption; lia).
    assert (SO : forall b, Some b = Some true <-> b = true) by (intros; split; congruence). rewrite SO.
    rewrite S by lia. split.
    + intros [H|(ex & ey & A1 & A2 & A3 & A4)].
      * exists x, y. rewrite px_on by assumption. rewrite H. split; [reflexivity|lia].
      * exists (Z.of_nat ex), (Z.of_nat ey). rewrite px_on by (try assumption; lia). rewrite !Nat2Z.id.
        cbn [edge] in A3. apply andb_true_iff in A3. destruct A3 as (-> & _). split; [reflexivity|lia].
    + intros (x' & y' & H1 & H2). apply PT in H1. destruct H1 as (B & T).
      destruct (on m (Z.to_nat x) (Z.to_nat y)) eqn:Eo; [left; reflexivity|]. right.
      destruct (walk m (Z.to_nat (Z.abs (x - x') + Z.abs (y - y'))) (Z.to_nat x) (Z.to_nat y) (Z.to_nat x') (Z.to_nat y'))
        as (ex & ey & A1 & A2 & A3 & A4); try lia; auto.
      exists ex, ey. repeat split; auto; lia.
Qed.
