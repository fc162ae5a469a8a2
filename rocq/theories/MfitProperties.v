(* C89: fitting sums of templates, one of each library. *)
From Coq Require Import QArith Qabs Lqa ZifyBool ZifyNat.
From Verif Require Import Base VecProofs VecProofs2 AsciiProofs6 ConvSpec ConvProofs HdistProofs QstackProofs2 QstackProofs5 IndexModel IndexSpec IndexProofs ImageModel
  TfitModel TfitSpec TfitProofs MfitModel MfitSpec MfitProofs MfitProofs2 MfitProofs3 MfitProofs4 MfitProofs5.
Local Open Scope nat_scope.

(* There is an inversion of symmetric matrices as supposed below. *)
Theorem C89_inversion : exists inv, inverts inv.
Proof. exists inv_ref. exact inv_ref_inverts. Qed.
Print Assumptions C89_inversion.

(* As long as the templates of the choices allowed are linearly independent, the fit finds among
   them the choice and the amplitudes of the smallest chi2 (the first choice if there are several),
   for the measured fluxes and for each simulation; the fluxes returned are the templates
   multiplied by the amplitudes.  If no choice is allowed the result is NaN.  After the first
   choice that is allowed and not independent, no other is considered. *)
Theorem C89_fit inv allowed libs y e noise K : inverts inv -> mix_input libs y e -> (forall n, In n noise -> length n = length e) ->
  independent_upto libs (length e) allowed K ->
  exists r, multi_template_fit inv allowed libs y e noise = Ok r /\
    match r_chi2 r with
    | Some c => exists ids amp, r_bfit r = map Some ids /\ r_amp r = map Some amp /\ mix_best libs y e allowed K ids amp c /\
        length (r_flux r) = length libs /\
        forall l, l < length libs -> exists fl, nth_error (r_flux r) l = Some (map Some fl) /\ length fl = length e /\
          forall k, k < length e -> (nth k fl 0 == nth l amp 0 * nth k (nth (nth l ids 0%nat) (nth l libs []) []) 0)%Q
    | None => (forall ids, choice libs ids -> row_major (map (@length (list Q)) libs) ids < K -> allowed ids = false) /\
        r_bfit r = repeat None (length libs) /\ r_amp r = repeat None (length libs) /\ r_flux r = repeat (repeat None (length e)) (length libs)
    end /\
    length (r_sims r) = length noise /\
    forall s n b, nth_error noise s = Some n -> nth_error (r_sims r) s = Some b ->
      match b_chi2 b with
      | Some c => mix_best libs (perturbed y n e) e allowed K (b_ids b) (b_amp b) c
      | None => forall ids, choice libs ids -> row_major (map (@length (list Q)) libs) ids < K -> allowed ids = false
      end.
Proof.
  intros Hinv Hin Hn Hind. assert (Hin' := Hin). destruct Hin as (Hne & Ly & Lt & He). unfold multi_template_fit. cbv zeta.
  rewrite zipq_ok by exact Ly. cbn [obind]. change (map (fun p => (fst p / snd p)%Q) (combine y e)) with (scale e y).
  assert (Lsy : length (scale e y) = length e) by (apply scale_len, Ly).
  assert (exists ws, omapl (fun n => zipq Qplus (scale e y) n) noise = Ok ws /\ length ws = length noise /\ Forall2 (sc e) ws (map (fun n => perturbed y n e) noise)) as (ws & -> & Lw & Fw).
  { clear Hind. induction noise as [|n noise IH]; [exists []; repeat split; constructor|]. cbn [omapl map]. assert (Ln := Hn n (or_introl eq_refl)).
    rewrite zipq_ok by lia. cbn [obind]. destruct IH as (ws & -> & Lw & Fw); [intros; apply Hn; right; assumption|]. cbn [obind].
    eexists. split; [reflexivity|]. split; [cbn; congruence|]. constructor; [|exact Fw].
    assert (Lp : length (perturbed y n e) = length e) by (unfold perturbed; rewrite map_length, !combine_length; lia).
    split; [rewrite map_length, combine_length; lia|]. split; [exact Lp|]. intros k Hk. rewrite (nth_zip Qplus) by lia. rewrite scale_nth by lia.
    assert (Np : nth k (perturbed y n e) 0%Q = (nth k y 0 + nth k n 0 * nth k e 0)%Q).
    { apply nth_error_nth. unfold perturbed. rewrite nth_error_map, !nth_error_combine2.
      rewrite (nth_error_nth' y 0%Q), (nth_error_nth' n 0%Q), (nth_error_nth' e 0%Q) by lia. reflexivity. }
    rewrite Np. field. apply He, nth_In, Hk. }
  cbn [obind]. rewrite (conv_ok libs e Lt). cbn [obind].
  destruct (rounds_mix libs y e Hin' inv allowed Hinv K ws _ Fw Hind) as (s & -> & Hb & Hs). cbn [obind].
  assert (Hi0 : forall ids, choice libs ids -> allowed ids = true -> row_major (map (@length (list Q)) libs) ids < K -> ~ dependent libs (length e) ids) by apply Hind.
  pose proof (best_mix libs y e Hin' inv allowed Hinv (scale e y) y K (m_best s) (sc_scale e y Ly) Hi0 Hb) as B.
  assert (S : forall k n b, nth_error noise k = Some n -> nth_error (m_sims s) k = Some b ->
      match b_chi2 b with
      | Some c => mix_best libs (perturbed y n e) e allowed K (b_ids b) (b_amp b) c
      | None => forall ids, choice libs ids -> row_major (map (@length (list Q)) libs) ids < K -> allowed ids = false
      end).
  { intros k n b Nn Nb. destruct (nth_error ws k) as [w|] eqn:Ew; [|apply nth_error_None in Ew; assert (k < length noise) by (apply nth_error_Some; congruence); lia].
    destruct (Forall2_at _ _ _ Fw k w Ew) as (z & Ez & Hz). rewrite nth_error_map, Nn in Ez. injection Ez as <-.
    destruct (Forall2_at _ _ _ Hs k w Ew) as (b' & Eb & Hb'). rewrite Nb in Eb. injection Eb as <-.
    apply (best_mix libs y e Hin' inv allowed Hinv w _ K b Hz Hi0 Hb'). }
  assert (Ls : length (m_sims s) = length noise) by (rewrite <- (F2_len _ _ _ Hs); exact Lw).
  unfold result. cbv zeta. destruct (b_chi2 (m_best s)) as [c|].
  - destruct B as (Hc & Ha & Hk & La & Hrest). destruct (rows_ok libs y e Hin' _ Hc) as (rows & -> & (Lr & Hr & Re) & Rn). cbn [obind].
    match goal with |- context [omapl ?f (combine rows ?a)] => destruct (omapl_ex _ _ f (combine rows a)) as (fl & E & Ff) end.
    { intros (r & a) I. apply in_combine_l in I. cbn [fst snd]. rewrite zipq_ok by (rewrite map_length; apply Hr; exact I). eauto. }
    rewrite E. cbn [obind]. clear E. eexists. split; [reflexivity|]. cbn [r_chi2 r_bfit r_amp r_flux r_sims]. split; [|split; [exact Ls|exact S]].
    exists (b_ids (m_best s)), (b_amp (m_best s)). split; [reflexivity|]. split; [reflexivity|]. split; [split; [exact Hc|]; split; [exact Ha|]; split; [exact Hk|]; split; [exact La|]; exact Hrest|].
    pose proof (F2_len _ _ _ Ff) as Lf. rewrite combine_length in Lf.
    split; [rewrite map_length; lia|]. intros l Hl.
    assert (N : nth_error (combine rows (b_amp (m_best s))) l = Some (nth l rows [], nth l (b_amp (m_best s)) 0%Q)).
    { rewrite nth_error_combine2, (nth_error_nth' rows []), (nth_error_nth' (b_amp (m_best s)) 0%Q) by lia. reflexivity. }
    destruct (Forall2_at _ _ _ Ff l _ N) as (f & Ef & Ez). cbn [fst snd] in Ez.
    assert (Lrow : length (nth l rows []) = length e) by (apply Hr, nth_In; lia).
    rewrite zipq_ok in Ez by (rewrite map_length; exact Lrow). injection Ez as <-.
    eexists. split; [rewrite nth_error_map, Ef; reflexivity|]. split; [rewrite map_length, combine_length, map_length; lia|].
    intros k Hke. rewrite (nth_zip Qmult) by (rewrite ?map_length; lia).
    rewrite (nth_indep (map _ (nth l rows [])) 0%Q (nth l (b_amp (m_best s)) 0 * 0)%Q) by (rewrite map_length; lia).
    rewrite (map_nth (Qmult (nth l (b_amp (m_best s)) 0%Q))).
    specialize (Re l k Hl Hke). unfold ent in Re. rewrite Re. unfold tpl. field. apply He, nth_In, Hke.
  - eexists. split; [reflexivity|]. cbn [r_chi2 r_bfit r_amp r_flux r_sims]. rewrite !map_length. split; [|split; [exact Ls|exact S]].
    split; [exact B|]. repeat split.
Qed.
Print Assumptions C89_fit.

(* If the templates of all choices allowed are independent, no choice allowed fits better with any
   amplitudes than the one returned. *)
Theorem C89_best inv allowed libs y e noise : inverts inv -> mix_input libs y e -> (forall n, In n noise -> length n = length e) ->
  (forall ids, choice libs ids -> allowed ids = true -> ~ dependent libs (length e) ids) ->
  (exists ids, choice libs ids /\ allowed ids = true) ->
  exists r c ids amp, multi_template_fit inv allowed libs y e noise = Ok r /\
    r_chi2 r = Some c /\ r_bfit r = map Some ids /\ r_amp r = map Some amp /\ choice libs ids /\ allowed ids = true /\
    (c == mixture_chi2 libs y e ids amp)%Q /\
    forall ids' b, choice libs ids' -> allowed ids' = true -> (c <= mixture_chi2 libs y e ids' b)%Q.
Proof.
  intros Hinv Hin Hn Hind (ids0 & Hc0 & Ha0). set (K := nprod (map (@length (list Q)) libs)).
  assert (Hlt : forall ids, choice libs ids -> row_major (map (@length (list Q)) libs) ids < K) by (intros ids Hc; apply row_major_bound; exact Hc).
  destruct (C89_fit inv allowed libs y e noise K Hinv Hin Hn) as (r & E & H & _).
  { split; [intros ids Hc Ha _; apply Hind; assumption|]. left. reflexivity. }
  destruct (r_chi2 r) as [c|] eqn:Ec.
  - destruct H as (ids & amp & Eb & Ea & (Hc & Ha & _ & _ & Q & M) & _). exists r, c, ids, amp.
    repeat (split; [assumption|]). intros ids' b Hc' Ha'. apply (M ids' b Hc' Ha'). apply Hlt, Hc'.
  - destruct H as (H & _). rewrite (H ids0 Hc0 (Hlt _ Hc0)) in Ha0. discriminate.
Qed.
Print Assumptions C89_best.

(* Finding: when the matrix of a choice cannot be inverted the loop goes on without selecting the
   next choice.  Here the first template is 0 in all bands and the second one fits exactly, but the
   result is NaN. *)
Theorem C89_singular_refuted : exists libs y e ids b, mix_input libs y e /\ choice libs ids /\ ~ dependent libs (length e) ids /\
  (mixture_chi2 libs y e ids b == 0)%Q /\
  forall inv, inverts inv -> exists r, multi_template_fit inv (fun _ => true) libs y e [] = Ok r /\ r_chi2 r = None /\ r_bfit r = [None].
Proof.
  exists [[[0; 0]; [1; 2]]]%Q, [2; 4]%Q, [1; 1]%Q, [1], [2]%Q.
  assert (Hin : mix_input [[[0; 0]; [1; 2]]]%Q [2; 4]%Q [1; 1]%Q).
  { split; [discriminate|]. split; [reflexivity|]. split.
    - intros lib t [<-|[]] [<-|[<-|[]]]; reflexivity.
    - intros x [<-|[<-|[]]]; discriminate. }
  split; [exact Hin|]. split; [repeat constructor|]. split.
  { intros (b & (l & Hl & Hb) & Z). cbn in Hl. assert (l = 0) by lia. subst l. apply Hb. specialize (Z 0 ltac:(cbn; lia)). unfold mixture in Z. cbn [length qsum nth] in Z. generalize dependent (nth 0 b 0%Q). intros q _ Z. lra. }
  split; [vm_compute; reflexivity|].
  intros inv Hinv. destruct (C89_fit inv (fun _ => true) [[[0; 0]; [1; 2]]]%Q [2; 4]%Q [1; 1]%Q [] 0 Hinv Hin) as (r & E & H & _).
  - intros n [].
  - split; [intros; lia|]. right. split; [apply Nat.ltb_lt; reflexivity|]. exists [0]. split; [repeat constructor|]. split; [reflexivity|]. split; [reflexivity|].
    exists [1]%Q. split; [exists 0; split; [cbn; lia|discriminate]|]. intros m Hm. unfold mixture. cbn. cbn in Hm. destruct m as [|[|m]]; [reflexivity|reflexivity|lia].
  - exists r. split; [exact E|]. destruct (r_chi2 r) as [c|].
    + destruct H as (ids & amp & _ & _ & (_ & _ & K & _) & _). lia.
    + destruct H as (_ & -> & _). auto.
Qed.
Print Assumptions C89_singular_refuted.

(* Finding: with upper limits the same happens for a choice that is not allowed: if the first one is
   not, the result is NaN whatever the others. *)
Theorem C89_limits_constraint_refuted allowed fit libs y e : allowed (repeat 0 (length libs)) = false ->
  exists r, multi_template_fit_limits allowed fit libs y e = Ok r /\ r_chi2 r = None /\ r_bfit r = repeat None (length libs).
Proof.
  intros Ha. unfold multi_template_fit_limits, rounds. cbv zeta. rewrite map_length.
  assert (G : forall l s, m_ids s = repeat 0 (length libs) ->
    ofold (fun s (_ : nat) => round (try_limits allowed fit) (map (@length (list Q)) libs) y [] s) l s = Ok s).
  { induction l as [|x l IH]; intros s Es; [reflexivity|]. cbn [ofold]. unfold round at 1. cbv zeta. rewrite Es. unfold try_limits at 1. rewrite Ha. cbn [obind]. apply IH, Es. }
  rewrite G by reflexivity. cbn [obind]. unfold result. cbn [m_best b_chi2]. eexists. split; [reflexivity|]. auto.
Qed.
Print Assumptions C89_limits_constraint_refuted.

(* Finding: with upper limits the templates have not been divided by the errors but the fluxes
   returned are multiplied by them. *)
Theorem C89_limits_flux_refuted : exists fit libs y e r a f, mix_input libs y e /\
  multi_template_fit_limits (fun _ => true) fit libs y e = Ok r /\ r_bfit r = [Some 0] /\ r_amp r = [Some a] /\ r_chi2 r = Some 0%Q /\
  (mixture_chi2 libs y e [0%nat] [a] == 0)%Q /\
  nth_error (r_flux r) 0 = Some [Some f] /\ ~ (f == a * 3)%Q /\ libs = [[[3%Q]]].
Proof.
  exists (fun _ => (0%Q, [2%Q])), [[[3]]]%Q, [6]%Q, [5]%Q. eexists. exists 2%Q. eexists. split.
  - split; [discriminate|]. split; [reflexivity|]. split; [intros lib t [<-|[]] [<-|[]]; reflexivity|]. intros x [<-|[]]; discriminate.
  - split; [vm_compute; reflexivity|]. split; [reflexivity|]. split; [reflexivity|]. split; [reflexivity|]. split; [vm_compute; reflexivity|].
    split; [reflexivity|]. split; [vm_compute; discriminate|reflexivity].
Qed.
Print Assumptions C89_limits_flux_refuted.

(* Finding: in the simulations with upper limits the function to minimise changes the simulated
   fluxes: called twice with the same parameters it returns other values. *)
Theorem C89_sim_deviate_refuted : exists lim err tpls row p row' d row'' d',
  deviate_sim lim [] err tpls row p = Ok (row', d) /\ deviate_sim lim [] err tpls row' p = Ok (row'', d') /\ ~ Forall2 Qeq d d'.
Proof.
  exists (fun x => x), [1; 2]%Q, [[1; 1]]%Q, [3; 5]%Q, [1]%Q. do 4 eexists. split; [vm_compute; reflexivity|]. split; [vm_compute; reflexivity|].
  intros F. inversion F as [|? ? ? ? H]. vm_compute in H. discriminate.
Qed.
Print Assumptions C89_sim_deviate_refuted.

(* Finding: without LAPACK the whole matrix is inverted, whose upper half is 0: the amplitudes are
   wrong.  Here the first template alone fits exactly. *)
Theorem C89_no_lapack_refuted : exists libs y e r c, mix_input libs y e /\ ~ dependent libs (length e) [0; 0] /\
  multi_template_fit no_lapack (fun _ => true) libs y e [] = Ok r /\ r_chi2 r = Some c /\
  (mixture_chi2 libs y e [0%nat; 0%nat] [1; 0] == 0)%Q /\ (0 < c)%Q.
Proof.
  exists [[[1; 1]]; [[1; 2]]]%Q, [1; 1]%Q, [1; 1]%Q. eexists. eexists. split.
  - split; [discriminate|]. split; [reflexivity|]. split; [intros lib t [<-|[<-|[]]] [<-|[]]; reflexivity|]. intros x [<-|[<-|[]]]; discriminate.
  - split.
    + intros (b & (l & Hl & Hb) & Z). apply Hb. pose proof (Z 0 ltac:(cbn; lia)) as Z0. pose proof (Z 1 ltac:(cbn; lia)) as Z1.
      unfold mixture in Z0, Z1. cbn [length qsum nth] in Z0, Z1, Hl. destruct l as [|[|l]]; [| |lia]; clear Hb; generalize dependent (nth 0 b 0%Q); generalize dependent (nth 1 b 0%Q); intros q p Z0 Z1; lra.
    + split; [vm_compute; reflexivity|]. split; [reflexivity|]. split; [vm_compute; reflexivity|]. vm_compute. reflexivity.
Qed.
Print Assumptions C89_no_lapack_refuted.

(* Without any library the counter of choices does not exist. *)
Theorem C89_no_library_UB inv y e : multi_template_fit inv (fun _ => false) [] y e [] = if length y =? length e then UB else CheckFail.
Proof. unfold multi_template_fit, zipq. destruct (length y =? length e); reflexivity. Qed.
Print Assumptions C89_no_library_UB.

(* Two libraries of two templates, in three bands; an inversion for 2 x 2 matrices.  Without
   constraints the fit is exact: 2 times template 1 of the first library plus 3 times template 0 of
   the second one. *)
Definition inv2 (v : img Q) : outcome (option (img Q)) :=
  match pix v with
  | [a; _; b; d] => let det := (a * d - b * b)%Q in
      Ok (if Qeq_bool det 0 then None else Some (Img 2 2 [d / det; 0; - b / det; a / det]%Q))
  | _ => UB
  end.
Definition ex_libs : list (list (list Q)) := [[[1; 1; 1]; [1; 2; 0]]; [[0; 1; 1]; [3; 0; 1]]]%Q.
Definition ex_show (r : outcome mres) := match r with
  | Ok r => Some (r_bfit r, map (option_map Qred) (r_amp r), option_map Qred (r_chi2 r), map (map (option_map Qred)) (r_flux r),
                  map (fun b => (b_ids b, map Qred (b_amp b))) (r_sims r))
  | _ => None end.
Example C89_example : ex_show (multi_template_fit inv2 (fun _ => true) ex_libs [2; 7; 3]%Q [1; 2; 1]%Q [[0; 0; 0]; [1; -1; 2]]%Q) =
  Some ([Some 1; Some 0], [Some 2; Some 3]%Q, Some 0%Q, [[Some 2; Some 4; Some 0]; [Some 0; Some 3; Some 3]]%Q,
        [([1; 0], [2; 3]%Q); ([0; 0], [3; 2]%Q)]).
Proof. vm_compute. reflexivity. Qed.
Example C89_example_constraint : ex_show (multi_template_fit inv2 (fun ids => match ids with [i; j] => i =? j | _ => false end) ex_libs [2; 7; 3]%Q [1; 2; 1]%Q []) =
  Some ([Some 0; Some 0], [Some 2; Some (9 # 5)]%Q, Some (16 # 5)%Q, [[Some 2; Some 2; Some 2]; [Some 0; Some (9 # 5); Some (9 # 5)]]%Q, []).
Proof. vm_compute. reflexivity. Qed.
