(* Proofs for C104: sampling by rejection. *)
From Coq Require Import QArith Lqa Lia.
From Verif Require Import Base VecProofs RandModel RandSpec.
Local Open Scope nat_scope.

Section Proofs.
Context {T : Type}.
Variable genpos : T -> outcome ((Q * Q) * T).
Variable inside : Q -> Q -> bool.
Hypothesis total : forall s, exists p s', genpos s = Ok (p, s').

Lemma drawn_app s1 l1 s2 : drawn genpos s1 l1 s2 -> forall l2 s3, drawn genpos s2 l2 s3 -> drawn genpos s1 (l1 ++ l2) s3.
Proof. induction 1 as [s|s p s1' l s2 E D IH]; intros l2 s3 D2; [exact D2|]. cbn [app]. econstructor; eauto. Qed.
Lemma attempt_ok : forall n p s, 0 < n -> exists r s' l, attempt genpos inside n p s = Ok (r, s') /\ drawn genpos s l s' /\
  match r with
  | Some q => exists bad, p :: l = bad ++ [q] /\ Forall (rejected inside) bad /\ accepted inside q /\ length bad < n
  | None => exists bad last, p :: l = bad ++ [last] /\ Forall (rejected inside) bad /\ length bad = n
  end.
Proof.
  induction n as [|n IH]; intros p s H; [lia|]. cbn [attempt]. destruct (inside (fst p) (snd p)) eqn:I.
  - exists (Some p), s, []. split; [reflexivity|]. split; [constructor|]. exists []. repeat split; [constructor|exact I|cbn; lia].
  - destruct (total s) as (p' & s' & E). rewrite E. cbn [obind]. destruct n as [|n].
    + exists None, s', [p']. split; [reflexivity|]. split; [econstructor; [exact E|constructor]|]. exists [p], p'. repeat split. constructor; [exact I|constructor].
    + destruct (IH p' s' ltac:(lia)) as (r & s2 & l & A & D & R). exists r, s2, (p' :: l). split; [exact A|]. split; [econstructor; eauto|].
      destruct r as [q|].
      * destruct R as (bad & E1 & B & Q1 & L). exists (p :: bad). rewrite E1. repeat split; [constructor; assumption|exact Q1|cbn; lia].
      * destruct R as (bad & last & E1 & B & L). exists (p :: bad), last. rewrite E1. repeat split; [constructor; assumption|cbn; lia].
Qed.

Lemma kept_bad bad : Forall (rejected inside) bad -> kept inside bad = [].
Proof. induction 1 as [|p bad H _ IH]; [reflexivity|]. unfold kept in *. cbn [filter]. rewrite H. exact IH. Qed.
Lemma kept_app a b : kept inside (a ++ b) = kept inside a ++ kept inside b.
Proof. apply filter_app. Qed.
Lemma kept_one q : accepted inside q -> kept inside [q] = [q].
Proof. intros H. unfold kept. cbn [filter]. rewrite H. reflexivity. Qed.

Lemma run_split bad q l n i k : Forall (rejected inside) bad -> accepted inside q -> length bad < n ->
  (forall i k, run inside l i k -> k < n) -> run inside (bad ++ q :: l) i k -> k < n.
Proof.
  intros B A L IH R. destruct (Nat.le_gt_cases i (length bad)) as [H|H].
  - destruct (Nat.lt_ge_cases k n) as [G|G]; [exact G|exfalso]. destruct (R (length bad - i) ltac:(lia)) as (p & E & N).
    replace (i + (length bad - i)) with (length bad) in E by lia. rewrite nth_error_app2, Nat.sub_diag in E by lia. cbn in E. injection E as <-. unfold accepted, rejected in *. congruence.
  - apply (IH (i - length bad - 1) k). intros j J. destruct (R j J) as (p & E & N). exists p. split; [|exact N].
    rewrite nth_error_app2 in E by lia. replace (i + j - length bad) with (S (i - length bad - 1 + j)) in E by lia. exact E.
Qed.

Lemma set_app (p l : list Q) v : l <> [] -> oset (p ++ l) (length p) v = Ok (p ++ v :: tl l).
Proof.
  intros N. destruct l as [|w l]; [congruence|]. unfold oset. rewrite app_length. cbn [length]. destruct (Nat.ltb_spec (length p) (length p + S (length l))); [|lia].
  rewrite upd_fill_app. reflexivity.
Qed.
Lemma sample_ok max_iter : 0 < draws max_iter -> forall todo px py rx ry s, length rx = todo -> length ry = todo -> length px = length py ->
  exists good kx s' l, sample genpos inside max_iter todo (length px) (px ++ rx) (py ++ ry) s = Ok (good, (px ++ map fst kx ++ skipn (length kx) rx, py ++ map snd kx ++ skipn (length kx) ry), s') /\
    drawn genpos s l s' /\
    (good = true -> length kx = todo /\ kx = kept inside l /\ (forall i k, run inside l i k -> k < draws max_iter)) /\
    (good = false -> length kx < todo /\ exists l0 bad last, l = l0 ++ bad ++ [last] /\ kx = kept inside l0 /\ Forall (rejected inside) bad /\ length bad = draws max_iter).
Proof.
  intros M. induction todo as [|todo IH]; intros px py rx ry s Lx Ly Lp.
  - exists true, [], s, []. cbn [sample map skipn length app]. rewrite (proj1 (length_zero_iff_nil rx) Lx), (proj1 (length_zero_iff_nil ry) Ly).
    split; [reflexivity|]. split; [constructor|]. split; [|discriminate]. intros _. split; [reflexivity|]. split; [reflexivity|]. intros i k R. destruct k; [exact M|]. destruct (R 0 ltac:(lia)) as (p & E & _). destruct (i + 0); discriminate.
  - cbn [sample]. destruct (total s) as (p & s1 & E). rewrite E. cbn [obind].
    destruct (attempt_ok (draws max_iter) p s1 M) as (r & s2 & l & A & D & R). rewrite A. cbn [obind]. destruct r as [q|].
    + destruct R as (bad & El & B & Q1 & L). destruct rx as [|vx rx]; [discriminate|]. destruct ry as [|vy ry]; [discriminate|].
      rewrite set_app by discriminate. cbn [obind]. rewrite Lp, set_app by discriminate. cbn [obind tl].
      specialize (IH (px ++ [fst q]) (py ++ [snd q]) rx ry s2 ltac:(cbn in Lx; lia) ltac:(cbn in Ly; lia) ltac:(rewrite !app_length; cbn; lia)).
      destruct IH as (good & kx & s' & l' & F & D' & G1 & G2). rewrite <- !app_assoc in F. cbn [app] in F. rewrite app_length in F. cbn [length] in F. rewrite Lp in F. rewrite F.
      exists good, (q :: kx), s', ((p :: l) ++ l'). split; [cbn [map app skipn length]; reflexivity|]. split; [eapply drawn_app; [econstructor; eauto|exact D']|]. split; intros G.
      * destruct (G1 G) as (K1 & K2 & K3). split; [cbn; lia|]. rewrite El. split.
        { rewrite !kept_app, (kept_bad bad B), (kept_one q Q1), K2. reflexivity. }
        intros i k Rn. rewrite <- app_assoc in Rn. cbn [app] in Rn. exact (run_split bad q l' _ i k B Q1 L K3 Rn).
      * destruct (G2 G) as (K1 & l0 & bad' & last & K2 & K3 & K4 & K5). split; [cbn; lia|]. exists ((p :: l) ++ l0), bad', last. split; [rewrite K2, <- app_assoc; reflexivity|].
        split; [|auto]. rewrite El, !kept_app, (kept_bad bad B), (kept_one q Q1), K3. reflexivity.
    + destruct R as (bad & last & El & B & L). exists false, [], s2, (p :: l). split; [reflexivity|]. split; [econstructor; eauto|]. split; [discriminate|]. intros _. split; [cbn; lia|].
      exists [], bad, last. cbn [app]. rewrite El. auto.
Qed.
Lemma resize_length v n : length (resize v n) = n.
Proof. unfold resize. rewrite app_length, firstn_length, repeat_length. lia. Qed.
Lemma fst_snd (l : list (Q * Q)) : combine (map fst l) (map snd l) = l.
Proof. induction l as [|[a b] l IH]; [reflexivity|]. cbn. rewrite IH. reflexivity. Qed.
Lemma draws_pos m : (0 <= m)%Z -> 0 < draws m.
Proof. intros H. unfold draws. destruct (Z.eqb_spec m 0); [change 0 with (Z.to_nat 0); apply Z2Nat.inj_lt; unfold two64; lia|lia]. Qed.
Lemma rejection_ok x y nsrc max_iter s : (0 <= max_iter)%Z ->
  exists good x' y' s' l, rejection_sampling x y nsrc max_iter genpos inside s = Ok (good, (x', y'), s') /\
    drawn genpos s l s' /\ length x' = nsrc /\ length y' = nsrc /\
    (good = true -> combine x' y' = kept inside l /\ (forall i k, run inside l i k -> k < draws max_iter)) /\
    (good = false -> exists l0 bad last, l = l0 ++ bad ++ [last] /\ Forall (rejected inside) bad /\ length bad = draws max_iter /\
       length (kept inside l0) < nsrc /\ firstn (length (kept inside l0)) (combine x' y') = kept inside l0).
Proof.
  intros M. destruct (sample_ok max_iter (draws_pos max_iter M) nsrc [] [] (resize x nsrc) (resize y nsrc) s (resize_length _ _) (resize_length _ _) eq_refl) as (good & kx & s' & l & E & D & G1 & G2).
  assert (K : length kx <= nsrc) by (destruct good; [destruct (G1 eq_refl); lia|destruct (G2 eq_refl); lia]).
  cbn [app length] in E. do 4 eexists. exists l. split; [exact E|]. split; [exact D|]. split; [rewrite app_length, map_length, skipn_length, resize_length; lia|]. split; [rewrite app_length, map_length, skipn_length, resize_length; lia|]. split; intros G.
  - destruct (G1 G) as (K1 & K2 & K3). split; [|exact K3]. rewrite !skipn_all2 by (rewrite resize_length; lia). rewrite !app_nil_r, fst_snd. exact K2.
  - destruct (G2 G) as (K1 & l0 & bad & last & K2 & K3 & K4 & K5). exists l0, bad, last. rewrite <- K3. repeat (split; [assumption|]).
    assert (C : forall (a b c d : list Q), length a = length b -> combine (a ++ c) (b ++ d) = combine a b ++ combine c d).
    { clear. induction a as [|h a IH]; intros [|k b] c d L; try discriminate; [reflexivity|]. cbn. rewrite IH by (cbn in L; lia). reflexivity. }
    rewrite C by (rewrite !map_length; reflexivity). rewrite fst_snd. rewrite firstn_app, Nat.sub_diag, firstn_all. cbn [firstn]. apply app_nil_r.
Qed.
End Proofs.
