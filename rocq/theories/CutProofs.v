(* Proofs about the extraction of cutouts. *)
From Coq Require Import QArith Qabs Qround Lqa Setoid Lia.
From Verif Require Import Base IndexProofs VecProofs VecProofs2 MatProofs ImageModel ImageSpec ImageProofs ImageProofs3 GenModel.
From Verif Require Import DrizProofs12 RegridSpec RegridProofs CutModel CutSpec.
Local Open Scope nat_scope.

Lemma read_ok v y0 y1 x0 x1 : wf v -> (0 <= y0 <= y1)%Z -> (y1 < Z.of_nat (nr v))%Z -> (0 <= x0 <= x1)%Z -> (x1 < Z.of_nat (nc v))%Z ->
  exists r, read_subset v y0 y1 x0 x1 = Ok r /\
    shows r (Z.to_nat (y1 - y0 + 1)) (Z.to_nat (x1 - x0 + 1)) (fun a b => px v (y0 + a) (x0 + b)).
Proof.
  intros W A B C D. unfold read_subset.
  destruct (((0 <=? y0) && (y0 <=? y1) && (y1 <? Z.of_nat (nr v)) && (0 <=? x0) && (x0 <=? x1) && (x1 <? Z.of_nat (nc v)))%Z)%bool eqn:G; [|lia].
  set (n := Z.to_nat (y1 - y0 + 1)). set (m := Z.to_nat (x1 - x0 + 1)).
  destruct (omapl_ok _ _ (fun p => pget v (fst p + Z.to_nat y0) (snd p + Z.to_nat x0))
     (fun p => px v (Z.of_nat (fst p + Z.to_nat y0)) (Z.of_nat (snd p + Z.to_nat x0))) (grid n m)) as (r & E & L & N).
  { intros [x y] Hp. apply in_grid in Hp. cbn [fst snd].
    destruct (pget_some v (x + Z.to_nat y0) (y + Z.to_nat x0) W) as (a & E1 & E2); [lia|lia|]. exists a. split; assumption. }
  rewrite E. cbn [obind]. rewrite grid_length in L. eexists. split; [reflexivity|].
  apply shows_nat; [reflexivity|reflexivity|exact L|]. cbn [pix]. intros x y Hx Hy.
  rewrite (N _ (x, y)) by (apply nth_error_grid; assumption). cbn [fst snd]. f_equal; lia.
Qed.

Lemma paste_ok (v : img (option Q)) (def : option Q) n y0 y1 x0 x1 iy0 ix0 (sub : img (option Q)) : wf v ->
  (0 <= y0 <= y1)%Z -> (y1 < Z.of_nat (nr v))%Z -> (0 <= x0 <= x1)%Z -> (x1 < Z.of_nat (nc v))%Z ->
  (iy0 <= y0)%Z -> (ix0 <= x0)%Z -> (y1 < iy0 + Z.of_nat n)%Z -> (x1 < ix0 + Z.of_nat n)%Z ->
  (forall y, (0 <= y < Z.of_nat (nr v)) -> (iy0 <= y < iy0 + Z.of_nat n) -> y0 <= y <= y1)%Z ->
  (forall x, (0 <= x < Z.of_nat (nc v)) -> (ix0 <= x < ix0 + Z.of_nat n) -> x0 <= x <= x1)%Z ->
  shows sub (Z.to_nat (y1 - y0 + 1)) (Z.to_nat (x1 - x0 + 1)) (fun a b => px v (y0 + a) (x0 + b)) ->
  exists d, ofold (fun d '(y, x) => z <- pget sub y x ;; pset n d (y + Z.to_nat (y0 - iy0)) (x + Z.to_nat (x0 - ix0)) z)
     (grid (nr sub) (nc sub)) (repeat def (n * n)) = Ok d /\
    shows (Img n n d) n n (fun a b => Some (match px v (iy0 + a) (ix0 + b) with Some q => q | None => def end)).
Proof.
  intros W A1 A2 B1 B2 C1 C2 D1 D2 Y X (R1 & R2 & R3 & R4).
  set (h := Z.to_nat (y1 - y0 + 1)) in *. set (w := Z.to_nat (x1 - x0 + 1)) in *.
  assert (Hh : Z.of_nat h = (y1 - y0 + 1)%Z) by (unfold h; lia). assert (Hw : Z.of_nat w = (x1 - x0 + 1)%Z) by (unfold w; lia).
  clearbody h w. set (u0 := Z.to_nat (y0 - iy0)). set (u1 := Z.to_nat (x0 - ix0)).
  assert (H0 : Z.of_nat u0 = (y0 - iy0)%Z) by (unfold u0; lia). assert (H1 : Z.of_nat u1 = (x0 - ix0)%Z) by (unfold u1; lia).
  clearbody u0 u1. rewrite R1, R2.
  destruct (copy_grid (fun x y => pget sub x y) (fun x y => match px sub (Z.of_nat x) (Z.of_nat y) with Some q => q | None => def end)
    h w n n u0 u1 (repeat def (n * n))) as (d & E & L & I1 & I2).
  { intros x y Hx Hy. destruct (pget_some sub x y R3) as (a & E1 & E2); [clear - R1 Hx; lia|clear - R2 Hy; lia|]. rewrite E1, E2. reflexivity. }
  { apply repeat_length. }
  { clear - H0 Hh D1. lia. }
  { clear - H1 Hw D2. lia. }
  exists d. split; [exact E|].
  apply shows_nat; [reflexivity|reflexivity|unfold wf; cbn [pix nr nc]; rewrite L; apply repeat_length|].
  cbn [pix]. intros a b Ha Hb.
  assert (Dec : ((iy0 + Z.of_nat a < 0 \/ Z.of_nat (nr v) <= iy0 + Z.of_nat a) \/ (ix0 + Z.of_nat b < 0 \/ Z.of_nat (nc v) <= ix0 + Z.of_nat b) \/
    (0 <= iy0 + Z.of_nat a < Z.of_nat (nr v) /\ 0 <= ix0 + Z.of_nat b < Z.of_nat (nc v)))%Z) by (clear; lia).
  destruct Dec as [K|[K|[K1 K2]]].
  - rewrite px_out by (clear - K; lia). rewrite I2; [apply nth_error_repeat; apply pos_lt; assumption|exact Hb|].
    clear - K H0 Hh A1 A2. lia.
  - rewrite px_out by (clear - K; lia). rewrite I2; [apply nth_error_repeat; apply pos_lt; assumption|exact Hb|].
    clear - K H1 Hw B1 B2. lia.
  - specialize (Y _ K1). specialize (X _ K2).
    assert (Y' : (y0 <= iy0 + Z.of_nat a <= y1)%Z) by (apply Y; clear - Ha; lia).
    assert (X' : (x0 <= ix0 + Z.of_nat b <= x1)%Z) by (apply X; clear - Hb; lia). clear X Y.
    assert (Ea : exists a', a = a' + u0 /\ a' < h) by (exists (a - u0); clear - Y' H0 Hh; lia).
    assert (Eb : exists b', b = b' + u1 /\ b' < w) by (exists (b - u1); clear - X' H1 Hw; lia).
    destruct Ea as (a' & -> & La). destruct Eb as (b' & -> & Lb).
    rewrite (I1 a' b' La Lb). do 2 f_equal.
    rewrite R4 by (clear - La Lb; lia). 
    replace (y0 + Z.of_nat a')%Z with (iy0 + Z.of_nat (a' + u0))%Z by (clear - H0; lia).
    replace (x0 + Z.of_nat b')%Z with (ix0 + Z.of_nat (b' + u1))%Z by (clear - H1; lia). reflexivity.
Qed.

Section W.
Context (v : img (option Q)) (def : option Q) (hs yc xc : Z).
Context (Wf : wf v) (F : fits (nr v) (nc v)) (Nr : 1 <= nr v) (Nc : 1 <= nc v) (Hs : (1 <= hs)%Z)
  (By : (- two63 <= yc - hs /\ yc + hs < two63)%Z) (Bx : (- two63 <= xc - hs /\ xc + hs < two63)%Z)
  (Fn : fits (Z.to_nat (2 * hs + 1)) (Z.to_nat (2 * hs + 1))).

Lemma covers_iff : covers hs (View v yc xc) <->
  ~ (xc + hs < 0 \/ Z.of_nat (nc v) <= xc - hs \/ yc + hs < 0 \/ Z.of_nat (nr v) <= yc - hs)%Z.
Proof.
  unfold covers. cbn [seen at_y at_x]. split.
  - intros (y & x & A & B & C & D). clear - A B C D. lia.
  - intros N. exists (Z.max 0 (yc - hs)), (Z.max 0 (xc - hs)). clear - N Nr Nc Hs. lia.
Qed.

Lemma window_ok' : (exists d, window_of v def hs yc xc = Ok (Some d) /\ covers hs (View v yc xc) /\
    square hs d (around def hs (View v yc xc))) \/
  (window_of v def hs yc xc = Ok None /\ ~ covers hs (View v yc xc)).
Proof.
  unfold window_of. rewrite !signed64_id by (clear - By Bx Hs; lia). cbn [obind].
  set (n := Z.to_nat (2 * hs + 1)) in *. assert (Hn : Z.of_nat n = (2 * hs + 1)%Z) by (unfold n; clear - Hs; lia).
  assert (Ar : forall d, shows d n n (fun a b => Some match px v (yc - hs + a) (xc - hs + b) with Some q => q | None => def end) ->
    square hs d (around def hs (View v yc xc))).
  { intros d (S1 & S2 & S3 & S4). unfold square. fold n. cbv zeta. split; [exact S1|]. split; [exact S2|]. split; [exact S3|].
    intros a b Ha Hb. rewrite (S4 a b Ha Hb). unfold around. cbn [seen at_y at_x].
    replace (yc + a - hs)%Z with (yc - hs + a)%Z by (clear; lia). replace (xc + b - hs)%Z with (xc - hs + b)%Z by (clear; lia). reflexivity. }
  destruct (((xc + hs <? 0) || (Z.of_nat (nc v) <=? xc - hs) || (yc + hs <? 0) || (Z.of_nat (nr v) <=? yc - hs))%Z)%bool eqn:G.
  { right. split; [reflexivity|]. rewrite covers_iff. clear - G. lia. }
  left. assert (G1 : (~ (xc + hs < 0 \/ Z.of_nat (nc v) <= xc - hs \/ yc + hs < 0 \/ Z.of_nat (nr v) <= yc - hs))%Z) by (clear - G; lia).
  pose proof (proj2 covers_iff G1) as Cv. clear G.
  destruct (((xc - hs <? 0) || (Z.of_nat (nc v) <=? xc + hs) || (yc - hs <? 0) || (Z.of_nat (nr v) <=? yc + hs))%Z)%bool eqn:G'.
  - rewrite filled_ok by exact Fn. cbn [obind]. destruct F as (F1 & F2 & F3).
    rewrite !wrap64_small by (clear - F1 F2 F3 Nr Nc; lia).
    destruct (Z.max_spec 0 (yc - hs)) as [P1|P1]; destruct (Z.max_spec 0 (xc - hs)) as [P2|P2];
    destruct (Z.min_spec (Z.of_nat (nr v) - 1) (yc + hs)) as [P3|P3]; destruct (Z.min_spec (Z.of_nat (nc v) - 1) (xc + hs)) as [P4|P4];
    set (ty0 := Z.max 0 (yc - hs)) in *; set (tx0 := Z.max 0 (xc - hs)) in *;
    set (ty1 := Z.min (Z.of_nat (nr v) - 1) (yc + hs)) in *; set (tx1 := Z.min (Z.of_nat (nc v) - 1) (xc + hs)) in *; clearbody ty0 tx0 ty1 tx1;
    (assert (Q1 : (0 <= ty0 <= ty1)%Z) by (clear - P1 P3 G1 Nr Hs; lia));
    (assert (Q2 : (0 <= tx0 <= tx1)%Z) by (clear - P2 P4 G1 Nc Hs; lia));
    (assert (Q3 : (ty1 < Z.of_nat (nr v))%Z) by (clear - P3; lia));
    (assert (Q4 : (tx1 < Z.of_nat (nc v))%Z) by (clear - P4; lia));
    (destruct (read_ok v ty0 ty1 tx0 tx1 Wf Q1 Q3 Q2 Q4) as (r & -> & R); cbn [obind];
     pose proof R as (R1 & R2 & _);
     (assert (C1 : ((Z.to_nat (ty1 - (yc - hs)) <? n) && (Z.to_nat (tx1 - (xc - hs)) <? n))%bool = true)
        by (apply andb_true_intro; split; apply Nat.ltb_lt; [clear - Hn P3 P1 Q1|clear - Hn P4 P2 Q2]; lia));
     rewrite C1; cbn [check obind];
     replace (ty1 - (yc - hs) - (ty0 - (yc - hs)) + 1)%Z with (ty1 - ty0 + 1)%Z by (clear; lia);
     replace (tx1 - (xc - hs) - (tx0 - (xc - hs)) + 1)%Z with (tx1 - tx0 + 1)%Z by (clear; lia);
     rewrite <- R1, <- R2, !Nat.eqb_refl; cbn [andb check obind pix];
     destruct (paste_ok v def n ty0 ty1 tx0 tx1 (yc - hs) (xc - hs) r Wf Q1 Q3 Q2 Q4) as (d & E & Sh);
     [clear - P1; lia|clear - P2; lia|clear - P3 Hn; lia|clear - P4 Hn; lia|intros y Y1 Y2; clear - Y1 Y2 P1 P3 Hn; lia
     |intros x Y1 Y2; clear - Y1 Y2 P2 P4 Hn; lia|exact R|];
     rewrite E; cbn [obind]; eexists; split; [reflexivity|]; split; [exact Cv|]; apply Ar; exact Sh).
  - destruct (read_ok v (yc - hs) (yc + hs) (xc - hs) (xc + hs) Wf) as (r & -> & R1 & R2 & R3 & R4);
      [clear - G' Hs; lia|clear - G'; lia|clear - G' Hs; lia|clear - G'; lia|]. cbn [obind].
    exists r. split; [reflexivity|]. split; [exact Cv|]. apply Ar.
    replace (yc + hs - (yc - hs) + 1)%Z with (2 * hs + 1)%Z in R1, R4 by (clear; lia).
    replace (xc + hs - (xc - hs) + 1)%Z with (2 * hs + 1)%Z in R2, R4 by (clear; lia). fold n in R1, R2, R4.
    split; [exact R1|]. split; [exact R2|]. split; [exact R3|]. intros a b Ha Hb. rewrite (R4 a b Ha Hb).
    destruct (px_some v (yc - hs + a) (xc - hs + b) Wf) as (q & ->); [clear - Hn Ha G'; lia|clear - Hn Hb G'; lia|reflexivity].
Qed.
End W.

Definition orelse (a b : option Q) : option Q := match a with Some q => Some q | None => b end.
Lemma combine_ok hs c d f g : square hs c f -> square hs d g ->
  exists r, combine_cuts c d = Ok r /\ square hs r (fun a b => orelse (f a b) (g a b)).
Proof.
  unfold square. cbv zeta. set (n := Z.to_nat (2 * hs + 1)). intros (C1 & C2 & C3 & C4) (D1 & D2 & D3 & D4). unfold combine_cuts.
  assert (Lc : length (pix c) = n * n) by (rewrite C3, C1, C2; reflexivity).
  assert (Ld : length (pix d) = n * n) by (rewrite D3, D1, D2; reflexivity).
  destruct (ofold_seq_inv (fun k r => length r = n * n /\
      (forall i, i < k -> exists x y, nth_error (pix c) i = Some x /\ nth_error (pix d) i = Some y /\ nth_error r i = Some (orelse x y)) /\
      (forall i, k <= i -> nth_error r i = nth_error (pix c) i))
    (fun r i => c <- oget r i ;; match c with Some _ => Ok r | None => z <- oget (pix d) i ;; oset r i z end) (length (pix c)) 0 (pix c))
    as (r & E & L & R & _).
  - split; [exact Lc|]. split; [intros i Hi; lia|reflexivity].
  - intros k r Hk (L & R & S). rewrite Lc in Hk.
    assert (exists x, nth_error (pix c) k = Some x) as (x & Ex) by (destruct (nth_error (pix c) k) eqn:E; [eauto|apply nth_error_None in E; lia]).
    assert (exists y, nth_error (pix d) k = Some y) as (y & Ey) by (destruct (nth_error (pix d) k) eqn:E; [eauto|apply nth_error_None in E; lia]).
    unfold oget. rewrite (S k) by lia. rewrite Ex. cbn [obind]. destruct x as [q|].
    + exists r. split; [reflexivity|]. split; [exact L|]. split; [|intros i Hi; apply S; lia].
      intros i Hi. destruct (Nat.eq_dec i k) as [->|Ne]; [|apply R; lia]. exists (Some q), y. rewrite S by lia. auto.
    + rewrite Ey. cbn [obind]. unfold oset. destruct (Nat.ltb_spec k (length r)); [|lia].
      eexists. split; [reflexivity|]. split; [rewrite upd_length; exact L|]. split.
      * intros i Hi. rewrite nth_error_upd. destruct (Nat.ltb_spec k (length r)); [|lia]. destruct (Nat.eqb_spec i k) as [->|Ne]; cbn [andb].
        -- exists None, y. auto.
        -- apply R. lia.
      * intros i Hi. rewrite nth_error_upd. destruct (Nat.eqb_spec i k) as [->|Ne]; [lia|]. rewrite ?andb_false_l, ?andb_false_r. apply S. lia.
  - rewrite E. cbn [obind]. exists (Img (nr c) (nc c) r). split; [reflexivity|].
    apply shows_nat; [exact C1|exact C2|unfold wf; cbn [pix nr nc]; rewrite C1, C2; exact L|]. cbn [pix]. intros x y Hx Hy.
    pose proof (pos_lt n n x y Hx Hy). destruct (R (x * n + y)) as (p & q & P1 & P2 & P3); [lia|]. rewrite P3.
    assert (Zx : (0 <= Z.of_nat x < Z.of_nat n)%Z) by (clear - Hx; lia). assert (Zy : (0 <= Z.of_nat y < Z.of_nat n)%Z) by (clear - Hy; lia).
    specialize (C4 _ _ Zx Zy). specialize (D4 _ _ Zx Zy).
    rewrite px_in in C4 by (rewrite ?C1, ?C2; assumption). rewrite px_in in D4 by (rewrite ?D1, ?D2; assumption). rewrite C2, P1 in C4. rewrite D2, P2 in D4.
    injection C4 as ->. injection D4 as ->. reflexivity.
Qed.

Lemma kept_app {A} (P : A -> Prop) l r x : kept P l r -> (P x -> kept P (l ++ [x]) (r ++ [x])) /\ (~ P x -> kept P (l ++ [x]) r).
Proof.
  induction 1 as [|v l r H K [I1 I2]|v l r H K [I1 I2]]; cbn [app]; split; intros Hx; repeat (constructor; auto).
Qed.
Lemma first_app l x : first_finite (l ++ [x]) = orelse (first_finite l) x.
Proof. induction l as [|[q|] l IH]; cbn [app first_finite orelse]; [destruct x; reflexivity|reflexivity|exact IH]. Qed.

Lemma square_ext hs c f g : square hs c f -> (forall a b, f a b = g a b) -> square hs c g.
Proof. intros (A & B & C & D) E. split; [exact A|]. split; [exact B|]. split; [exact C|]. intros a b Ha Hb. rewrite D by assumption. rewrite E. reflexivity. Qed.

Section L.
Context {H : Type} (def : option Q) (hs : Z) (gh : bool) (ira idec : Q) (h0 : option H) (ref0 : Q * Q).
Implicit Types i : @image H.
Definition yof i : Q := (snd (ad2xy i ira idec) - 1)%Q.
Definition xof i : Q := (fst (ad2xy i ira idec) - 1)%Q.
Definition view_of i : view := View (data i) (qround (yof i)) (qround (xof i)).
Definition within i : Prop := wf (data i) /\ fits (nr (data i)) (nc (data i)) /\ 1 <= nr (data i) /\ 1 <= nc (data i) /\
  (- two63 <= qround (yof i) - hs /\ qround (yof i) + hs < two63)%Z /\ (- two63 <= qround (xof i) - hs /\ qround (xof i) + hs < two63)%Z.
Context (Hs : (1 <= hs)%Z) (Fn : fits (Z.to_nat (2 * hs + 1)) (Z.to_nat (2 * hs + 1))).

Definition state_of (ks : list (@image H)) (s : @progress H) : Prop :=
  match ks with
  | [] => cut s = None /\ hdr s = h0 /\ ref s = ref0
  | i :: _ => (exists c, cut s = Some c /\ square hs c (fun a b => first_finite (map (fun i => around def hs (view_of i) a b) ks))) /\
      hdr s = (if gh then Some (wcs_of i) else h0) /\
      ref s = (inject_Z (hs + 1) + (xof i - inject_Z (qround (xof i))), inject_Z (hs + 1) + (yof i - inject_Z (qround (yof i))))%Q
  end.
Lemma next_ok ks s i : within i -> state_of ks s ->
  exists s', next_image def hs gh ira idec s i = Ok s' /\
    ((covers hs (view_of i) /\ state_of (ks ++ [i]) s') \/ (~ covers hs (view_of i) /\ state_of ks s')).
Proof.
  intros (W & F & N1 & N2 & By & Bx) S. unfold next_image.
  destruct (ad2xy i ira idec) as [a b] eqn:E.
  assert (Ex : (a - 1)%Q = xof i) by (unfold xof; rewrite E; reflexivity). assert (Ey : (b - 1)%Q = yof i) by (unfold yof; rewrite E; reflexivity).
  cbv zeta. rewrite Ex, Ey.
  rewrite !signed64_id by lia. cbn [obind].
  destruct (window_ok' (data i) def hs (qround (yof i)) (qround (xof i)) W F N1 N2 Hs By Bx Fn) as [(d & -> & C & Sq)|(-> & C)]; cbn [obind].
  - destruct ks as [|k ks].
    + destruct S as (-> & Sh & Sr). eexists. split; [reflexivity|]. left. split; [exact C|]. cbn [app state_of].
      split; [|cbn [hdr ref]; rewrite Sh; split; reflexivity]. exists d. split; [reflexivity|].
      apply (square_ext hs d _ _ Sq). intros p q. cbn [map first_finite]. unfold view_of. destruct (around _ _ _ p q); reflexivity.
    + destruct S as ((c & -> & Sc) & Sh & Sr). destruct (combine_ok hs c d _ _ Sc Sq) as (r & -> & Sq'). cbn [obind].
      eexists. split; [reflexivity|]. left. split; [exact C|]. change ((k :: ks) ++ [i]) with (k :: (ks ++ [i])). cbn [state_of hdr ref cut].
      split; [|split; assumption]. exists r. split; [reflexivity|]. apply (square_ext hs r _ _ Sq'). intros p q.
      change (k :: ks ++ [i]) with ((k :: ks) ++ [i]). rewrite map_app. cbn [map]. change (?x :: map ?f ks ++ [?y]) with ((x :: map f ks) ++ [y]).
      rewrite first_app. reflexivity.
  - exists s. split; [destruct ks; destruct (cut s); reflexivity|]. right. split; assumption.
Qed.
Lemma loop_ok : forall imgs done ks s, Forall within imgs -> kept (fun i => covers hs (view_of i)) done ks -> state_of ks s ->
  exists s' ks', ofold (next_image def hs gh ira idec) imgs s = Ok s' /\ kept (fun i => covers hs (view_of i)) (done ++ imgs) ks' /\ state_of ks' s'.
Proof.
  induction imgs as [|i imgs IH]; intros done ks s Fa K S.
  - exists s, ks. rewrite app_nil_r. auto.
  - inversion Fa as [|? ? W Fa']; subst. destruct (next_ok ks s i W S) as (s1 & E1 & D). cbn [ofold]. rewrite E1. cbn [obind].
    replace (done ++ i :: imgs) with ((done ++ [i]) ++ imgs) by (rewrite <- app_assoc; reflexivity).
    destruct (kept_app _ _ _ i K) as [K1 K2]. destruct D as [[C S1]|[C S1]]; eapply IH; eauto.
Qed.
End L.

Lemma half_ok size a : (0 < a)%Q -> (Qabs ((1#2) * size / a) <= inject_Z (2 ^ 62))%Q ->
  exists hs, half_size size (Some a) = Ok hs /\ (1 <= hs <= 2 ^ 62)%Z /\ (size <= inject_Z (2 * hs) * a)%Q /\
    forall k, (1 <= k)%Z -> (size <= inject_Z (2 * k) * a)%Q -> (hs <= k)%Z.
Proof.
  intros Ha B. unfold half_size. destruct (Qeq_bool a 0) eqn:E; [apply Qeq_bool_iff in E; rewrite E in Ha; discriminate|].
  set (t := ((1#2) * size / a)%Q) in *. assert (Et : (size == 2 * t * a)%Q) by (unfold t; field; intros K; rewrite K in Ha; discriminate).
  pose proof (Qle_ceiling t) as C1. pose proof (Qceiling_lt t) as C2. apply Qabs_Qle_condition in B.
  assert (U : (Qceiling t <= 2 ^ 62)%Z).
  { rewrite Zle_Qle. unfold Z.sub in C2. rewrite inject_Z_plus in C2. change (inject_Z (- (1))) with (-(1))%Q in C2.
    assert (K : (inject_Z (Qceiling t) < inject_Z (2 ^ 62 + 1))%Q) by (rewrite inject_Z_plus; change (inject_Z 1) with 1%Q; lra).
    rewrite <- Zlt_Qlt in K. rewrite <- Zle_Qle. lia. }
  set (hs := (if 1 >? Qceiling t then 1 else Qceiling t)%Z).
  assert (Hh : (hs = Z.max 1 (Qceiling t))%Z) by (unfold hs; destruct (Z.gtb_spec 1 (Qceiling t)); lia).
  assert (T63 : two63 = 9223372036854775808%Z) by reflexivity. change (2 ^ 62)%Z with 4611686018427387904%Z in *.
  rewrite signed64_id by lia. exists hs. split; [reflexivity|]. split; [lia|]. split.
  - assert (K : (t <= inject_Z hs)%Q). { eapply Qle_trans; [exact C1|]. rewrite <- Zle_Qle. lia. }
    rewrite Et, inject_Z_mult. change (inject_Z 2) with 2%Q. apply Qmult_le_compat_r; [lra|apply Qlt_le_weak; exact Ha].
  - intros k Hk Sk. rewrite Et, inject_Z_mult in Sk. change (inject_Z 2) with 2%Q in Sk.
    apply Qmult_le_r in Sk; [|exact Ha]. assert (K : (t <= inject_Z k)%Q) by lra.
    assert (K' : (inject_Z (Qceiling t - 1) < inject_Z k)%Q) by lra. rewrite <- Zlt_Qlt in K'. lia.
Qed.
