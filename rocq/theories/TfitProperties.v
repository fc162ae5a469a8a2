(* C88: fitting a library of templates to fluxes. *)
From Coq Require Import QArith Lqa ZifyBool ZifyNat.
From Verif Require Import Base VecProofs VecProofs2 AsciiProofs6 HdistProofs QstackProofs5 ReduceModel TfitModel TfitSpec TfitProofs.
Local Open Scope nat_scope.

Lemma min_index_any l : l <> [] -> exists i, min_index l = Ok i /\ i < length l /\ ((exists x, In (Some x) l) -> first_min l i).
Proof.
  intros H. destruct (existsb (fun x => match x with Some _ => true | None => false end) l) eqn:E.
  - apply existsb_exists in E as ([x|] & I & K); [|discriminate].
    destruct (min_index_first l (ex_intro _ x I)) as (i & Ei & Fi). exists i. split; [exact Ei|]. split; [|auto].
    destruct Fi as (c & Nc & _). apply nth_error_Some. congruence.
  - exists 0. assert (N : forall x, ~ In (Some x) l).
    { intros x I. assert (existsb (fun x => match x with Some _ => true | None => false end) l = true) by (apply existsb_exists; exists (Some x); auto). congruence. }
    split; [apply min_index_none; assumption|]. split; [destruct l; [congruence|cbn; lia]|]. intros (x & I). destruct (N x I).
Qed.

(* The fit succeeds on any input of the right sizes.  Each template gets the amplitude that
   minimises its chi2 (NaN for a template that is 0 in all bands), and its chi2 with this amplitude
   if renorm is set and with amplitude 1 otherwise.  The index returned is the first one of the
   smallest chi2. *)
Theorem C88_fit renorm tpl y e noise : fit_input tpl y e -> (forall n, In n noise -> length n = length e) ->
  exists r, template_fit renorm tpl y e noise = Ok r /\
    length (t_amp r) = length tpl /\ length (t_chi2 r) = length tpl /\ length (t_flux r) = length tpl /\ t_bfit r < length tpl /\
    (forall i t, nth_error tpl i = Some t -> exists a c,
       nth_error (t_amp r) i = Some a /\ nth_error (t_chi2 r) i = Some c /\ one_fit renorm y e t a c /\
       nth_error (t_flux r) i = Some (map (fun x => option_map (fun a => (x * a)%Q) a) t)) /\
    ((exists x, In (Some x) (t_chi2 r)) -> first_min (t_chi2 r) (t_bfit r)).
Proof.
  intros (Hne & Ly & Lt & He) Hn. destruct (fit_all_ok renorm y e tpl Ly Lt He) as (amp & chi2 & E & La & Lc & H).
  assert (Nc : chi2 <> []) by (intros ->; destruct tpl; [congruence|discriminate]).
  destruct (min_index_any chi2 Nc) as (b & Eb & Lb & Fb).
  unfold template_fit. cbv zeta. rewrite E. cbn [obind]. rewrite Eb. cbn [obind].
  match goal with |- context [omapl ?f noise] => destruct (omapl_ex _ _ f noise) as (sims & -> & _) end.
  { intros n In_. specialize (Hn n In_). rewrite zipq_ok by exact Hn. cbn [obind].
    set (ne := map _ (combine n e)). assert (Le : length ne = length e) by (unfold ne; rewrite map_length, combine_length; lia).
    rewrite zipq_ok by lia. cbn [obind]. set (fs := map _ (combine y ne)).
    assert (Lf : length fs = length e) by (unfold fs; rewrite map_length, combine_length; lia).
    destruct (fit_all_ok renorm fs e tpl Lf Lt He) as (amp' & chi2' & -> & La' & Lc' & _). cbn [obind].
    assert (Nc' : chi2' <> []) by (intros ->; destruct tpl; [congruence|discriminate]).
    destruct (min_index_any chi2' Nc') as (b' & -> & Lb' & _). cbn [obind]. unfold oget.
    destruct (nth_error amp' b) eqn:E1; [|apply nth_error_None in E1; lia]. cbn [obind].
    destruct (nth_error amp' b') eqn:E2; [|apply nth_error_None in E2; lia]. cbn [obind]. eexists. reflexivity. }
  cbn [obind]. eexists. split; [reflexivity|]. cbn [t_amp t_chi2 t_flux t_bfit].
  split; [exact La|]. split; [exact Lc|]. split; [rewrite map_length, combine_length; lia|]. split; [lia|]. split; [|exact Fb].
  intros i t Ht. destruct (H i t Ht) as (a & c & Ea & Ec & O). exists a, c. split; [exact Ea|]. split; [exact Ec|]. split; [exact O|].
  rewrite nth_error_map, nth_error_combine2, Ht, Ea. reflexivity.
Qed.
Print Assumptions C88_fit.

(* With renorm: no template of the library fits better with any amplitude than the one returned
   with its amplitude. *)
Theorem C88_best_renorm tpl y e noise r : fit_input tpl y e -> (forall n, In n noise -> length n = length e) ->
  template_fit true tpl y e noise = Ok r -> (exists t, In t tpl /\ ~ zero_template t) ->
  exists t a c, nth_error tpl (t_bfit r) = Some t /\ nth_error (t_amp r) (t_bfit r) = Some (Some a) /\
    nth_error (t_chi2 r) (t_bfit r) = Some (Some c) /\ (c == misfit y (scaled a t) e)%Q /\
    forall t' b, In t' tpl -> ~ zero_template t' -> (misfit y (scaled a t) e <= misfit y (scaled b t') e)%Q.
Proof.
  intros Hin Hn Er (t1 & I1 & Z1). destruct (C88_fit true tpl y e noise Hin Hn) as (r' & E & La & Lc & Lf & Lb & H & F).
  rewrite Er in E. injection E as <-.
  assert (Ex : exists x, In (Some x) (t_chi2 r)).
  { apply In_nth_error in I1 as (i & Hi). destruct (H i t1 Hi) as (a & c & _ & Ec & [(Z & _)|(a' & x & _ & _ & -> & _)] & _); [contradiction|].
    exists x. eapply nth_error_In. exact Ec. }
  destruct (F Ex) as (c & Nc & M).
  destruct (nth_error tpl (t_bfit r)) as [t|] eqn:Et; [|apply nth_error_None in Et; lia].
  destruct (H _ t Et) as (a & c' & Ea & Ec & O & _). rewrite Nc in Ec. injection Ec as <-.
  destruct O as [(_ & _ & [=])|(a' & x & Z & -> & [= <-] & B & Q)].
  exists t, a', c. split; [reflexivity|]. split; [exact Ea|]. split; [exact Nc|]. split; [exact Q|].
  intros t' b I' Z'. apply In_nth_error in I' as (j & Hj). destruct (H j t' Hj) as (a2 & c2 & _ & Ec2 & [(K & _)|(a3 & x2 & _ & _ & -> & B2 & Q2)] & _); [contradiction|].
  destruct (M j x2 Ec2) as (L & _). specialize (B2 b). rewrite <- Q. lra.
Qed.
Print Assumptions C88_best_renorm.

(* Without renorm: no template of the library fits better as it is. *)
Theorem C88_best_plain tpl y e noise r : fit_input tpl y e -> (forall n, In n noise -> length n = length e) ->
  template_fit false tpl y e noise = Ok r ->
  exists t c, nth_error tpl (t_bfit r) = Some t /\ nth_error (t_chi2 r) (t_bfit r) = Some (Some c) /\ (c == misfit y t e)%Q /\
    forall t', In t' tpl -> (misfit y t e <= misfit y t' e)%Q.
Proof.
  intros Hin Hn Er. destruct (C88_fit false tpl y e noise Hin Hn) as (r' & E & La & Lc & Lf & Lb & H & F).
  rewrite Er in E. injection E as <-.
  assert (G : forall i t, nth_error tpl i = Some t -> exists c, nth_error (t_chi2 r) i = Some (Some c) /\ (c == misfit y t e)%Q).
  { intros i t Hi. destruct (H i t Hi) as (a & c & _ & Ec & [(_ & _ & x & -> & Q)|(a' & x & _ & _ & -> & _ & Q)] & _); exists x; auto. }
  destruct (nth_error tpl (t_bfit r)) as [t|] eqn:Et; [|apply nth_error_None in Et; lia].
  destruct (G _ t Et) as (c & Nc & Q). destruct (F (ex_intro _ c (nth_error_In _ _ Nc))) as (c' & Nc' & M).
  rewrite Nc in Nc'. injection Nc' as <-. exists t, c. split; [reflexivity|]. split; [exact Nc|]. split; [exact Q|].
  intros t' I'. apply In_nth_error in I' as (j & Hj). destruct (G j t' Hj) as (c2 & N2 & Q2). destruct (M j c2 N2) as (L & _). rewrite <- Q, <- Q2. exact L.
Qed.
Print Assumptions C88_best_plain.

(* Each simulation is the fit of the perturbed fluxes: its best template and the amplitude of it,
   and the amplitude of the best template of the measured fluxes. *)
Theorem C88_sim renorm tpl y e noise r k n : fit_input tpl y e -> (forall n, In n noise -> length n = length e) ->
  template_fit renorm tpl y e noise = Ok r -> nth_error noise k = Some n ->
  exists s a b, template_fit renorm tpl (perturbed y n e) e [] = Ok s /\
    nth_error (t_sed_sim r) k = Some (t_bfit s) /\
    nth_error (t_amp s) (t_bfit s) = Some a /\ nth_error (t_amp_sim r) k = Some a /\
    nth_error (t_amp s) (t_bfit r) = Some b /\ nth_error (t_amp_bfit_sim r) k = Some b.
Proof.
  intros (Hne & Ly & Lt & He) Hn Er Hk. unfold template_fit in Er. cbv zeta in Er.
  apply obind_Ok in Er as ((amp & chi2) & E1 & Er). apply obind_Ok in Er as (b & Eb & Er). apply obind_Ok in Er as (sims & Es & [= <-]).
  cbn [t_sed_sim t_amp_sim t_amp_bfit_sim t_bfit].
  destruct (Forall2_at _ _ _ (omapl_Ok_inv _ _ _ _ _ Es) k n Hk) as ((p & as_) & Ns & E). cbv beta in E.
  specialize (Hn n (nth_error_In _ _ Hk)). rewrite zipq_ok in E by exact Hn. cbn [obind] in E.
  rewrite zipq_ok in E by (rewrite map_length, combine_length; lia). cbn [obind] in E.
  assert (EP : map (fun p => (fst p + snd p)%Q) (combine y (map (fun p => (fst p * snd p)%Q) (combine n e))) = perturbed y n e).
  { unfold perturbed. clear. revert y. induction (combine n e) as [|[a b] l IH]; intros [|c y]; cbn; try reflexivity. f_equal. apply IH. }
  rewrite EP in E. unfold template_fit. cbv zeta. apply obind_Ok in E as ((amp' & chi2') & -> & E). cbn [obind].
  apply obind_Ok in E as (ised & -> & E). cbn [obind omapl]. apply obind_Ok in E as (ab & Eab & E). apply obind_Ok in E as (as' & Eas & [= <- <-]).
  eexists. exists as', ab. split; [reflexivity|]. cbn [t_bfit t_amp]. rewrite !nth_error_map, Ns. cbn [option_map fst snd].
  apply oget_Ok in Eab, Eas. repeat split; assumption.
Qed.
Print Assumptions C88_sim.

(* Sizes that do not match, and empty libraries, are errors. *)
Theorem C88_sizes_abort renorm tpl y e noise :
  tpl = [] \/ length y <> length e \/ (exists t, In t tpl /\ length t <> length e) ->
  template_fit renorm tpl y e noise = CheckFail.
Proof.
  intros H. destruct tpl as [|t0 tpl]; [reflexivity|]. destruct H as [H|H]; [discriminate|].
  unfold template_fit, fit_all. cbv zeta.
  assert (K : omapl (wdot (map invsqr e) y) (t0 :: tpl) = CheckFail); [|rewrite K; reflexivity].
  destruct (Nat.eq_dec (length y) (length e)) as [Ly|Ly].
  - destruct H as [H|(t & It & Lt)]; [contradiction|]. revert It. generalize (t0 :: tpl). induction l as [|a l IH]; intros []; cbn [omapl].
    + subst a. unfold wdot at 1. rewrite zipq_ok by (rewrite map_length; lia). cbn [obind]. unfold zipq.
      rewrite map_length, combine_length, map_length. replace (_ =? length t) with false by lia. reflexivity.
    + destruct (Nat.eq_dec (length a) (length e)) as [La|La].
      * unfold wdot at 1. rewrite zipq_ok by (rewrite map_length; lia). cbn [obind].
        rewrite zipq_ok by (rewrite map_length, combine_length, map_length; lia). cbn [obind]. rewrite IH by assumption. reflexivity.
      * unfold wdot at 1. rewrite zipq_ok by (rewrite map_length; lia). cbn [obind]. unfold zipq.
        rewrite map_length, combine_length, map_length. replace (_ =? length a) with false by lia. reflexivity.
  - cbn [omapl]. unfold wdot at 1. unfold zipq at 1. rewrite map_length. replace (length e =? length y) with false by lia. reflexivity.
Qed.
Print Assumptions C88_sizes_abort.

(* Finding: without renorm the fluxes returned are still multiplied by the amplitudes: they are
   not the model whose chi2 is returned. *)
Theorem C88_plain_flux_refuted : exists tpl y e r f c,
  fit_input tpl y e /\ template_fit false tpl y e [] = Ok r /\
  nth_error (t_flux r) (t_bfit r) = Some (map Some f) /\ nth_error (t_chi2 r) (t_bfit r) = Some (Some c) /\
  ~ (c == misfit y f e)%Q.
Proof.
  exists [[1; 1]; [4; 6]]%Q, [2; 3]%Q, [1; 1]%Q. eexists. eexists. eexists. split.
  - split; [discriminate|]. split; [reflexivity|]. split; [intros t [<-|[<-|[]]]; reflexivity|].
    intros x [<-|[<-|[]]]; discriminate.
  - split; [vm_compute; reflexivity|]. split.
    + cbn. instantiate (1 := [_; _]). cbn. reflexivity.
    + split; [reflexivity|]. vm_compute. discriminate.
Qed.
Print Assumptions C88_plain_flux_refuted.

(* Three templates in two bands, the last one 0: the second fits exactly with amplitude 1/2. *)
Example C88_example : match template_fit true [[1; 1]; [4; 6]; [0; 0]]%Q [2; 3]%Q [1; 2]%Q [[1; -1]%Q] with
  | Ok r => Some (t_bfit r, map (option_map Qred) (t_amp r), map (option_map Qred) (t_chi2 r), t_sed_sim r)
  | _ => None end =
  Some (1, [Some (11 # 5)%Q; Some (1 # 2)%Q; None], [Some (1 # 5)%Q; Some 0%Q; None], [0]).
Proof. vm_compute. reflexivity. Qed.
(* as they are, the first one fits better *)
Example C88_example_plain : match template_fit false [[1; 1]; [4; 6]; [0; 0]]%Q [2; 3]%Q [1; 2]%Q [] with
  | Ok r => Some (t_bfit r, map (option_map Qred) (t_chi2 r)) | _ => None end =
  Some (0, [Some 2%Q; Some (25 # 4)%Q; Some (25 # 4)%Q]).
Proof. vm_compute. reflexivity. Qed.
