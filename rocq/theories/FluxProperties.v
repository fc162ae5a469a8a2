(* C101: the flux of a spectrum through a filter. *)
From Coq Require Import QArith Qfield Lqa Lia.
From Verif Require Import Base VecProofs OrderModel OrderSpec OrderProofs3 InterpModel InterpSpec InterpProofs IntegModel IntegSpec IntegProofs IntegProofs2 FluxModel FluxSpec FluxProofs.
Local Open Scope nat_scope.

Lemma checks flam fres lam sed f0 : length flam = length fres -> length lam = length sed -> 0 < length lam -> nth_error flam 0 = Some f0 ->
  sed2flux flam fres lam sed = (ised <- lower_bound qlt lam f0 ;;
    match ised with
    | None => Ok None
    | Some ised => r0 <- oget fres 0 ;; s <- flux_interpolate lam sed f0 ised ;;
        flux_loop (length flam + length lam) flam fres lam sed 0 ised f0 (times r0 s) (Some 0%Q)
    end).
Proof.
  intros Lr Ls Nl F0. assert (Nf : 0 < length flam) by (apply nth_error_Some; congruence).
  unfold sed2flux. rewrite Lr, Ls, !Nat.eqb_refl. cbn [check obind]. rewrite <- Lr, <- Ls.
  destruct (Nat.ltb_spec 0 (length flam)); [|lia]. destruct (Nat.ltb_spec 0 (length lam)); [|lia]. cbn [check obind].
  rewrite (oget_some _ _ _ F0). cbn [obind]. reflexivity.
Qed.
Lemma start flam lam f0 l0 ll : increasing lam -> increasing flam -> nth_error flam 0 = Some f0 -> first_last lam l0 ll -> (l0 <= f0)%Q -> (f0 < ll)%Q ->
  exists k, k < length lam - 1 /\ placed flam lam 0 k f0 /\ (forall b, nth_error lam (k + 1) = Some b -> (f0 < b)%Q) /\
  forall fres sed, length flam = length fres -> length lam = length sed ->
    exists r0 s, nth_error fres 0 = Some r0 /\ (s == curve lam sed f0)%Q /\
      sed2flux flam fres lam sed = flux_loop (length flam + length lam) flam fres lam sed 0 k f0 (Some (r0 * s)%Q) (Some 0%Q).
Proof.
  intros Il If F0 [L0 Ll] H0 H1.
  destruct (lower_bound_ok qlt qlt_order lam f0 (nondecreasing_ascending lam (increasing_weak lam Il))) as (o & E & S).
  assert (Nf : 0 < length flam) by (apply nth_error_Some; congruence). assert (Nl : 0 < length lam) by (apply nth_error_Some; congruence).
  destruct o as [k|]; cbn [last_le] in S.
  2:{ exfalso. specialize (S 0 l0 L0). apply qlt_true in S. lra. }
  destruct S as ((y & Y & Hy) & S). apply qlt_false in Hy. assert (K : k < length lam) by (apply nth_error_Some; congruence).
  assert (K1 : k < length lam - 1).
  { destruct (Nat.eq_dec k (length lam - 1)) as [->|]; [|lia]. rewrite Ll in Y. injection Y as <-. lra. }
  assert (Up : forall b, nth_error lam (k + 1) = Some b -> (f0 < b)%Q) by (intros b B; apply qlt_true; apply (S (k + 1)); [lia|exact B]).
  exists k. split; [exact K1|]. split.
  { split; [exists f0; split; [exact F0|lra]|]. split; [intros b B; apply Qlt_le_weak; exact (If 0 _ _ F0 B)|]. split; [exists y; auto|]. intros b B. apply Qlt_le_weak, Up, B. }
  split; [exact Up|]. intros fres sed Lr Ls. destruct (nth_error fres 0) as [r0|] eqn:R0; [|apply nth_error_None in R0; lia].
  destruct (nth_error lam (k + 1)) as [b|] eqn:B; [|apply nth_error_None in B; lia].
  destruct (interp_ok lam sed k y b f0 Il Ls Y B Hy ltac:(apply Qlt_le_weak, Up; reflexivity)) as (s & Es & Vs).
  exists r0, s. split; [reflexivity|]. split; [exact Vs|].
  rewrite (checks flam fres lam sed f0 Lr Ls Nl F0), E. cbn [obind]. rewrite (oget_some _ _ _ R0). cbn [obind]. rewrite Es. reflexivity.
Qed.

(* For a spectrum that starts no later than the filter and ends after it, the flux is the trapezoid
   rule applied to filter times spectrum, each interpolated linearly, at the nodes of both; the
   nodes depend on the wavelengths only. *)
Theorem C101_sed2flux : forall flam lam f0 fl l0 ll, increasing flam -> increasing lam -> 2 <= length flam ->
  first_last flam f0 fl -> first_last lam l0 ll -> (l0 <= f0)%Q -> (fl < ll)%Q ->
  exists g, nodes flam lam g /\ forall fres sed, length flam = length fres -> length lam = length sed ->
    exists r, sed2flux flam fres lam sed = Ok (Some r) /\ (r == rule (fun t => curve flam fres t * curve lam sed t)%Q g)%Q.
Proof.
  intros flam lam f0 fl l0 ll If Il L2 [F0 Fl] FL H0 H1.
  assert (H01 : (f0 < fl)%Q) by (eapply (increasing_lt flam If 0 (length flam - 1)); [lia|exact F0|exact Fl]).
  destruct (start flam lam f0 l0 ll Il If F0 FL H0 ltac:(lra)) as (k & K & P & Up & St). destruct FL as [L0 Ll].
  destruct (visit_ok flam lam If Il ltac:(lia) fl ll Fl Ll H1 (length flam + length lam) 0 k f0) as (G1 & G2 & G3 & G4 & G5 & G6); [lia|lia|exact K|exact P|lia|].
  exists (f0 :: visit (length flam + length lam) flam lam 0 k). split.
  - exists f0, fl. split; [split; assumption|]. split; [split; [reflexivity|exact G1]|]. split; [exact G2|]. split; [|split].
    + intros x I. apply In_nth_error in I. destruct I as (i & E). destruct i as [|i]; [rewrite F0 in E; injection E as <-; left; reflexivity|]. apply (G3 (S i)); [lia|exact E].
    + intros x I Ha Hb. apply In_nth_error in I. destruct I as (i & E). apply (G4 i); [|exact E|exact Hb].
      destruct (Nat.lt_ge_cases k i) as [H|H]; [exact H|exfalso]. destruct P as (_ & _ & (a & A & Ha') & _).
      assert (x <= a)%Q by (eapply nondecreasing_mono; [apply increasing_weak, Il|exact H|exact E|exact A]). lra.
    + intros x [<-|I]; [left; eapply nth_error_In; exact F0|]. exact (G5 x I).
  - intros fres sed Lr Ls. destruct (St fres sed Lr Ls) as (r0 & s & R0 & Vs & E). rewrite E.
    destruct (loop_ok flam lam If Il ltac:(lia) fl ll Fl Ll fres sed Lr Ls L2 H1 (length flam + length lam) 0 k f0 (r0 * s)%Q 0%Q) as (r & E' & V); [lia|lia|exact K|exact P| |].
    + unfold product. rewrite Vs, (curve_node flam fres 0 f0 r0 If Lr L2 F0 R0). reflexivity.
    + exists r. split; [exact E'|]. rewrite V. unfold product. ring.
Qed.
Print Assumptions C101_sed2flux.
(* a flat spectrum gives its value times the area of the filter: the value itself if the filter is
   normalised *)
Theorem C101_flat : forall flam fres lam sed f0 fl l0 ll c, increasing flam -> increasing lam -> 2 <= length flam ->
  length flam = length fres -> length lam = length sed ->
  first_last flam f0 fl -> first_last lam l0 ll -> (l0 <= f0)%Q -> (fl < ll)%Q -> (forall v, In v sed -> (v == c)%Q) ->
  exists r, sed2flux flam fres lam sed = Ok (Some r) /\ (r == c * trap_sum flam fres)%Q /\
    ((trap_sum flam fres == 1)%Q -> (r == c)%Q).
Proof.
  intros flam fres lam sed f0 fl l0 ll c If Il L2 Lr Ls [F0 Fl] FL H0 H1 Hc.
  assert (H01 : (f0 < fl)%Q) by (eapply (increasing_lt flam If 0 (length flam - 1)); [lia|exact F0|exact Fl]).
  destruct (start flam lam f0 l0 ll Il If F0 FL H0 ltac:(lra)) as (k & K & P & Up & St). 
  assert (FLl := FL). destruct FL as [L0 Ll].
  destruct (visit_ok flam lam If Il ltac:(lia) fl ll Fl Ll H1 (length flam + length lam) 0 k f0) as (G1 & G2 & G3 & G4 & G5 & G6); [lia|lia|exact K|exact P|lia|].
  destruct (St fres sed Lr Ls) as (r0 & s & R0 & Vs & E). rewrite E.
  destruct (loop_ok flam lam If Il ltac:(lia) fl ll Fl Ll fres sed Lr Ls L2 H1 (length flam + length lam) 0 k f0 (r0 * s)%Q 0%Q) as (r & E' & V); [lia|lia|exact K|exact P| |].
  { unfold product. rewrite Vs, (curve_node flam fres 0 f0 r0 If Lr L2 F0 R0). reflexivity. }
  exists r. split; [exact E'|]. assert (R : (r == c * trap_sum flam fres)%Q).
  { rewrite V. rewrite (rule_ext _ (fun t => c * curve flam fres t)%Q).
    - rewrite rule_scale, (rule_rest flam lam If Il ltac:(lia) fl ll Fl Ll fres Lr H1); [|lia|lia|exact K|exact P]. cbn [skipn].
      destruct flam as [|x0 [|x1 flam]]; [cbn in L2; lia|cbn in L2; lia|]. destruct fres as [|y0 [|y1 fres]]; [cbn in Lr; lia|cbn in Lr; lia|].
      cbn in F0. injection F0 as ->. cbn [combine rest]. rewrite (line_a f0 y0 x1 y1). unfold trap_sum. cbn [combine].
      change (segments ((f0, y0) :: (x1, y1) :: combine flam fres)) with (((f0, y0), (x1, y1)) :: segments ((x1, y1) :: combine flam fres)). unfold sum_with; cbn [map fold_right trap fst snd]. unfold Qdiv. ring.
    - intros x I. unfold product.
      assert (Hx : (f0 <= x)%Q /\ (x <= fl)%Q).
      { split; [apply G6, I|]. destruct I as [<-|I]; [lra|]. destruct (G5 x I) as [J|(_ & _ & J)]; [|exact J]. apply In_nth_error in J. destruct J as (i & J). exact (le_last flam ltac:(lia) flam fl i x If Fl J). }
      destruct (curve_bounds lam sed l0 ll x c c Il Ls ltac:(lia) FLl) as (B1 & B2); [lra|lra|intros v J; specialize (Hc v J); split; lra|].
      assert (Ec : (curve lam sed x == c)%Q) by lra. rewrite Ec. ring. }
  split; [exact R|]. intros U. rewrite R, U. ring.
Qed.
Print Assumptions C101_flat.
(* the flux is linear in the spectrum *)
Theorem C101_linear : forall flam fres lam s1 s2 a b f0 fl l0 ll, increasing flam -> increasing lam -> 2 <= length flam ->
  length flam = length fres -> length lam = length s1 -> length lam = length s2 ->
  first_last flam f0 fl -> first_last lam l0 ll -> (l0 <= f0)%Q -> (fl < ll)%Q ->
  exists r r1 r2, sed2flux flam fres lam (map (fun p => a * fst p + b * snd p)%Q (combine s1 s2)) = Ok (Some r) /\
    sed2flux flam fres lam s1 = Ok (Some r1) /\ sed2flux flam fres lam s2 = Ok (Some r2) /\ (r == a * r1 + b * r2)%Q.
Proof.
  intros flam fres lam s1 s2 a b f0 fl l0 ll If Il L2 Lr L1 L2' FF FL H0 H1.
  destruct (C101_sed2flux flam lam f0 fl l0 ll If Il L2 FF FL H0 H1) as (g & (f & t & Hf & Hg & N & N1 & N2 & N3) & G).
  destruct (G fres (map (fun p => a * fst p + b * snd p)%Q (combine s1 s2)) Lr ltac:(rewrite map_length, combine_length, <- L1, <- L2'; symmetry; apply Nat.min_id)) as (r & E & V).
  destruct (G fres s1 Lr L1) as (r1 & E1 & V1), (G fres s2 Lr L2') as (r2 & E2 & V2). exists r, r1, r2. split; [exact E|]. split; [exact E1|]. split; [exact E2|].
  rewrite V, V1, V2, <- !rule_scale, <- rule_plus. apply rule_ext. intros x I.
  destruct FF as [F0 Fl], Hf as [F0' Fl']. rewrite F0 in F0'. rewrite Fl in Fl'. injection F0' as <-. injection Fl' as <-.
  assert (Hx : (f0 <= x)%Q /\ (x <= fl)%Q).
  { destruct (N3 x I) as [J|(_ & J)]; [|exact J]. apply In_nth_error in J. destruct J as (i & J). split; [|exact (le_last flam ltac:(lia) flam fl i x If Fl J)]. eapply nondecreasing_mono; [apply increasing_weak, If|apply Nat.le_0_l|exact F0|exact J]. }
  rewrite (curve_combination lam s1 s2 a b x l0 ll Il L1 L2'); [ring| |exact FL|lra|lra].
  destruct FL as [L0 Ll]. destruct lam as [|u [|v lam]]; [discriminate| |cbn; lia]. cbn in L0, Ll. injection L0 as ->. injection Ll as ->. lra.
Qed.
Print Assumptions C101_linear.
(* with a filter that is nowhere negative the flux is between the smallest and the largest value of
   the spectrum times the area of the filter *)
Theorem C101_bounds : forall flam fres lam sed f0 fl l0 ll m M, increasing flam -> increasing lam -> 2 <= length flam ->
  length flam = length fres -> length lam = length sed ->
  first_last flam f0 fl -> first_last lam l0 ll -> (l0 <= f0)%Q -> (fl < ll)%Q ->
  (forall v, In v fres -> (0 <= v)%Q) -> (forall v, In v sed -> (m <= v)%Q /\ (v <= M)%Q) ->
  exists r, sed2flux flam fres lam sed = Ok (Some r) /\ (m * trap_sum flam fres <= r)%Q /\ (r <= M * trap_sum flam fres)%Q.
Proof.
  intros flam fres lam sed f0 fl l0 ll m M If Il L2 Lr Ls FF FL H0 H1 Hf Hs.
  destruct (C101_sed2flux flam lam f0 fl l0 ll If Il L2 FF FL H0 H1) as (g & (f & t & Hfl & Hg & N & N1 & N2 & N3) & G).
  destruct (G fres sed Lr Ls) as (r & E & V). exists r. split; [exact E|].
  assert (L2l : 2 <= length lam).
  { destruct FL as [L0 Ll], FF as [F0 Fl]. destruct lam as [|u [|v lam]]; [discriminate| |cbn; lia]. cbn in L0, Ll. injection L0 as ->. injection Ll as ->.
    assert (f0 < fl)%Q by (eapply (increasing_lt flam If 0 (length flam - 1)); [lia|exact F0|exact Fl]). lra. }
  destruct (FF) as [F0 Fl], Hfl as [F0' Fl']. rewrite F0 in F0'. rewrite Fl in Fl'. injection F0' as <-. injection Fl' as <-.
  assert (C : forall c, exists rc, (rc == rule (fun t => curve flam fres t * curve lam (repeat c (length lam)) t)%Q g)%Q /\ (rc == c * trap_sum flam fres)%Q).
  { intros c. destruct (G fres (repeat c (length lam)) Lr ltac:(rewrite repeat_length; reflexivity)) as (rc & Ec & Vc).
    destruct (C101_flat flam fres lam (repeat c (length lam)) f0 fl l0 ll c If Il L2 Lr ltac:(rewrite repeat_length; reflexivity) FF FL H0 H1) as (rc' & Ec' & Vc' & _).
    - intros v I. apply repeat_spec in I. subst v. reflexivity.
    - rewrite Ec in Ec'. injection Ec' as <-. exists rc. auto. }
  assert (In_range : forall x, In x g -> (f0 <= x)%Q /\ (x <= fl)%Q).
  { intros x I. destruct (N3 x I) as [J|(_ & J)]; [|exact J]. apply In_nth_error in J. destruct J as (i & J). split; [|exact (le_last flam ltac:(lia) flam fl i x If Fl J)]. eapply nondecreasing_mono; [apply increasing_weak, If|apply Nat.le_0_l|exact F0|exact J]. }
  assert (Bf : exists top, forall v, In v fres -> (0 <= v)%Q /\ (v <= top)%Q).
  { clear - Hf. induction fres as [|y fres IH]; [exists 0%Q; intros ? []|]. destruct IH as (top & T); [intros v I; apply Hf; right; exact I|].
    destruct (Qlt_le_dec top y) as [H|H].
    - exists y. intros v [<-|I]; [split; [apply Hf; left; reflexivity|apply Qle_refl]|]. destruct (T v I). split; [assumption|lra].
    - exists top. intros v [<-|I]; [split; [apply Hf; left; reflexivity|exact H]|auto]. }
  destruct Bf as (top & Bf).
  assert (Cc : forall c x, In x g -> (curve lam (repeat c (length lam)) x == c)%Q).
  { intros c x I. destruct (In_range x I). destruct (curve_bounds lam (repeat c (length lam)) l0 ll x c c Il ltac:(rewrite repeat_length; reflexivity) L2l FL) as (B1 & B2); [lra|lra| |lra].
    intros v J. apply repeat_spec in J. subst v. split; apply Qle_refl. }
  split.
  - destruct (C m) as (rc & V1 & V2). rewrite <- V2, V1, V. apply rule_le; [exact N|]. intros x I. destruct (In_range x I). rewrite (Cc m x I).
    destruct (curve_bounds flam fres f0 fl x 0 top If Lr L2 FF) as (B1 & _); [lra|lra|exact Bf|].
    destruct (curve_bounds lam sed l0 ll x m M Il Ls L2l FL) as (B2 & _); [lra|lra|exact Hs|]. rewrite !(Qmult_comm (curve flam fres x)). apply Qmult_le_compat_r; assumption.
  - destruct (C M) as (rc & V1 & V2). rewrite <- V2, V1, V. apply rule_le; [exact N|]. intros x I. destruct (In_range x I). rewrite (Cc M x I).
    destruct (curve_bounds flam fres f0 fl x 0 top If Lr L2 FF) as (B1 & _); [lra|lra|exact Bf|].
    destruct (curve_bounds lam sed l0 ll x m M Il Ls L2l FL) as (_ & B2); [lra|lra|exact Hs|]. rewrite !(Qmult_comm (curve flam fres x)). apply Qmult_le_compat_r; assumption.
Qed.
Print Assumptions C101_bounds.
(* NaN if the spectrum starts after the filter, or ends before it *)
Theorem C101_uncovered : forall flam fres lam sed f0 fl l0 ll, increasing flam -> increasing lam -> 2 <= length flam ->
  length flam = length fres -> length lam = length sed -> first_last flam f0 fl -> first_last lam l0 ll ->
  (f0 < l0)%Q \/ ((f0 < ll)%Q /\ (ll < fl)%Q) -> sed2flux flam fres lam sed = Ok None.
Proof.
  intros flam fres lam sed f0 fl l0 ll If Il L2 Lr Ls [F0 Fl] FL H.
  assert (Nl : 0 < length lam) by (destruct FL as [L0 _]; apply nth_error_Some; congruence).
  destruct (Qlt_le_dec f0 l0) as [H0|H0].
  - rewrite (checks flam fres lam sed f0 Lr Ls Nl F0).
    destruct (lower_bound_ok qlt qlt_order lam f0 (nondecreasing_ascending lam (increasing_weak lam Il))) as (o & -> & S). cbn [obind]. destruct o as [k|]; [|reflexivity].
    destruct S as ((y & Y & Hy) & _). apply qlt_false in Hy. destruct FL as [L0 _].
    assert (l0 <= y)%Q by (eapply nondecreasing_mono; [apply increasing_weak, Il|apply Nat.le_0_l|exact L0|exact Y]). lra.
  - destruct H as [H|[H1 H2]]; [lra|]. destruct (start flam lam f0 l0 ll Il If F0 FL H0 H1) as (k & K & P & Up & St).
    destruct (St fres sed Lr Ls) as (r0 & s & _ & _ & E). rewrite E. destruct FL as [L0 Ll].
    apply (loop_short flam lam If Il ltac:(lia) fl ll Fl Ll fres sed Lr Ls ltac:(lra)); [lia|lia|lia|exact P].
Qed.
Print Assumptions C101_uncovered.
(* one spectrum per line *)
Theorem C101_rows : forall flam fres lam sed, length lam = length sed ->
  sed2flux_rows flam fres lam sed = omapl (fun p => sed2flux flam fres (fst p) (snd p)) (combine lam sed).
Proof.
  intros flam fres lam sed L. unfold sed2flux_rows.
  assert (G : forall (sed lam pl ps : list (list Q)), length lam = length sed -> length pl = length ps ->
    omapl (fun s => l <- oget (pl ++ lam) s ;; d <- oget (ps ++ sed) s ;; sed2flux flam fres l d) (seq (length ps) (length sed)) =
    omapl (fun p => sed2flux flam fres (fst p) (snd p)) (combine lam sed)).
  { clear. induction sed as [|d sed IH]; intros [|l lam] pl ps L Lp; try discriminate; [reflexivity|].
    cbn [length seq combine omapl fst snd]. unfold oget at 1 2. rewrite !nth_error_app2 by lia. rewrite Lp, !Nat.sub_diag. cbn [nth_error obind].
    destruct (sed2flux flam fres l d); cbn [obind]; try reflexivity.
    specialize (IH lam (pl ++ [l]) (ps ++ [d]) ltac:(cbn in L; lia) ltac:(rewrite !app_length; cbn; lia)).
    rewrite <- !app_assoc in IH. cbn [app] in IH. rewrite app_length in IH. cbn [length] in IH. rewrite Nat.add_1_r in IH. rewrite IH. reflexivity. }
  exact (G sed lam [] [] L eq_refl).
Qed.
Print Assumptions C101_rows.

Example ex_flux : exists r, sed2flux [1; 2; 3]%Q [0; 1; 0]%Q [0; 3 # 2; 4]%Q [1; 1; 1]%Q = Ok (Some r) /\ (r == 1)%Q.
Proof. eexists. split; [vm_compute; reflexivity|]. apply Qeq_bool_iff. vm_compute. reflexivity. Qed.
(* the filter is 0, 1/2, 1, 0 and the spectrum 2, 3, 4, 6 at the nodes 1, 3/2, 2, 3 *)
Example ex_flux2 : exists r, sed2flux [1; 2; 3]%Q [0; 1; 0]%Q [0; 3 # 2; 4]%Q [0; 3; 8]%Q = Ok (Some r) /\ (r == (3 # 8) + (11 # 8) + 2)%Q.
Proof. eexists. split; [vm_compute; reflexivity|]. apply Qeq_bool_iff. vm_compute. reflexivity. Qed.

(* Finding: a spectrum that ends at exactly the last wavelength of the filter covers it, but the
   result is NaN: at equal wavelengths the loop takes the node of the spectrum and stops. *)
Theorem C101_end_refuted : forall flam fres lam sed f0 fl l0 ll, increasing flam -> increasing lam -> 2 <= length flam ->
  length flam = length fres -> length lam = length sed -> first_last flam f0 fl -> first_last lam l0 ll ->
  (l0 <= f0)%Q -> (fl == ll)%Q -> sed2flux flam fres lam sed = Ok None.
Proof.
  intros flam fres lam sed f0 fl l0 ll If Il L2 Lr Ls [F0 Fl] FL H0 H1.
  assert (H01 : (f0 < fl)%Q) by (eapply (increasing_lt flam If 0 (length flam - 1)); [lia|exact F0|exact Fl]).
  destruct (start flam lam f0 l0 ll Il If F0 FL H0 ltac:(lra)) as (k & K & P & Up & St).
  destruct (St fres sed Lr Ls) as (r0 & s & _ & _ & E). rewrite E. destruct FL as [L0 Ll].
  apply (loop_short flam lam If Il ltac:(lia) fl ll Fl Ll fres sed Lr Ls ltac:(lra)); [lia|lia|lia|exact P].
Qed.
Print Assumptions C101_end_refuted.
(* Finding: a spectrum that ends at or before the first wavelength of the filter is read beyond its
   end. *)
Theorem C101_before_UB : forall flam fres lam sed f0 l0 ll, increasing lam -> length flam = length fres -> length lam = length sed ->
  nth_error flam 0 = Some f0 -> first_last lam l0 ll -> (ll <= f0)%Q -> sed2flux flam fres lam sed = UB.
Proof.
  intros flam fres lam sed f0 l0 ll Il Lr Ls F0 [L0 Ll] H.
  assert (Nl : 0 < length lam) by (apply nth_error_Some; congruence). assert (Nf : 0 < length flam) by (apply nth_error_Some; congruence).
  rewrite (checks flam fres lam sed f0 Lr Ls Nl F0).
  destruct (lower_bound_ok qlt qlt_order lam f0 (nondecreasing_ascending lam (increasing_weak lam Il))) as (o & -> & S). cbn [obind]. destruct o as [k|]; cbn [last_le] in S.
  - destruct S as ((y & Y & Hy) & S). assert (K : k < length lam) by (apply nth_error_Some; congruence).
    assert (k = length lam - 1) as ->.
    { destruct (Nat.eq_dec k (length lam - 1)) as [|N]; [assumption|]. specialize (S (length lam - 1) ll ltac:(lia) Ll). apply qlt_true in S. lra. }
    destruct (nth_error fres 0) as [r0|] eqn:R0; [|apply nth_error_None in R0; lia]. rewrite (oget_some _ _ _ R0). cbn [obind].
    unfold flux_interpolate. destruct (nth_error sed (length lam - 1)) as [d|] eqn:D; [|apply nth_error_None in D; lia]. rewrite (oget_some _ _ _ D). cbn [obind].
    unfold oget at 1. rewrite (proj2 (nth_error_None sed (length lam - 1 + 1))) by lia. reflexivity.
  - specialize (S (length lam - 1) ll Ll). apply qlt_true in S. lra.
Qed.
Print Assumptions C101_before_UB.
(* a filter with vertical edges (the same wavelength twice), also at a node of the spectrum *)
Example ex_edge : exists r, sed2flux [1; 2; 2; 3]%Q [1; 1; 0; 0]%Q [0; 2; 4]%Q [1; 1; 1]%Q = Ok (Some r) /\ (r == 1)%Q.
Proof. eexists. split; [vm_compute; reflexivity|]. apply Qeq_bool_iff. vm_compute. reflexivity. Qed.
(* Finding: a filter of a single wavelength gives 0 for every spectrum, not NaN. *)
Theorem C101_single_refuted : forall f r lam sed l0 ll, increasing lam -> length lam = length sed -> first_last lam l0 ll -> (l0 <= f)%Q -> (f < ll)%Q ->
  sed2flux [f] [r] lam sed = Ok (Some 0%Q).
Proof.
  intros f r lam sed l0 ll I L FL H0 H1.
  destruct (start [f] lam f l0 ll I) as (k & _ & _ & _ & St); [intros i a b A B; destruct i as [|[|i]]; discriminate|reflexivity|exact FL|exact H0|exact H1|].
  destruct (St [r] sed eq_refl L) as (r0 & s & _ & _ & E). rewrite E. reflexivity.
Qed.
Print Assumptions C101_single_refuted.

Definition piece {A} (v : list A) (s e : nat) : list A := firstn (e + 1 - s) (skipn s v).
(* sed_luminosity integrates sed/lam over the whole cells of the grid that touch the interval *)
Theorem C101_luminosity : forall lam sed l0 l1 a b, increasing lam -> length lam = length sed -> first_last lam a b -> (0 < a)%Q ->
  (a <= l0)%Q -> (l0 <= l1)%Q -> (l1 < b)%Q ->
  exists s e r x y z w, nth_error lam s = Some x /\ (x <= l0)%Q /\ nth_error lam (s + 1) = Some y /\ (l0 < y)%Q /\
    nth_error lam (e - 1) = Some z /\ (z <= l1)%Q /\ nth_error lam e = Some w /\ (l1 < w)%Q /\ s < e /\
    sed_luminosity lam sed l0 l1 = Ok (Some r) /\
    (r == trap_sum (piece lam s e) (map (fun p => snd p / fst p)%Q (combine (piece lam s e) (piece sed s e))))%Q.
Proof.
  intros lam sed l0 l1 a b I L [Fa Fb] Pa H0 H01 H1.
  destruct (lower_bound_ok qlt qlt_order lam l0 (nondecreasing_ascending lam (increasing_weak lam I))) as (os & Es & Ss).
  destruct (upper_bound_ok qlt qlt_order lam l1 (nondecreasing_ascending lam (increasing_weak lam I))) as (oe & Ee & Se).
  unfold sed_luminosity. rewrite Es, Ee. cbn [obind].
  destruct os as [s|]; cbn [last_le] in Ss. 2:{ specialize (Ss 0 a Fa). apply qlt_true in Ss. lra. }
  destruct oe as [e|]; cbn [first_gt] in Se. 2:{ specialize (Se _ b Fb). apply qlt_false in Se. lra. }
  destruct Ss as ((x & X & Hx) & Ss), Se as ((w & W & Hw) & Se). apply qlt_false in Hx. apply qlt_true in Hw.
  assert (Ls : s < length lam) by (apply nth_error_Some; congruence). assert (Le : e < length lam) by (apply nth_error_Some; congruence).
  assert (Hse : s < e). { destruct (Nat.lt_ge_cases s e) as [H|H]; [exact H|]. assert (w <= x)%Q by (eapply nondecreasing_mono; [apply increasing_weak, I|exact H|exact W|exact X]). lra. }
  destruct (nth_error lam (s + 1)) as [y|] eqn:Y; [|apply nth_error_None in Y; lia]. destruct (nth_error lam (e - 1)) as [z|] eqn:Z; [|apply nth_error_None in Z; lia].
  assert (Hy : (l0 < y)%Q) by (apply qlt_true; apply (Ss (s + 1)); [lia|exact Y]). assert (Hz : (z <= l1)%Q) by (apply qlt_false; apply (Se (e - 1)); [lia|exact Z]).
  unfold section. destruct (Nat.ltb_spec e (length lam)); [|lia]. destruct (Nat.ltb_spec e (length sed)); [|lia]. destruct (Nat.ltb_spec s (length lam)); [|lia]. destruct (Nat.ltb_spec s (length sed)); [|lia].
  cbn [check obind]. destruct (Nat.ltb_spec (S e) s); [lia|]. cbn [obind].
  replace (firstn (S e - s) (skipn s lam)) with (piece lam s e) by (unfold piece; rewrite Nat.add_1_r; reflexivity).
  replace (firstn (S e - s) (skipn s sed)) with (piece sed s e) by (unfold piece; rewrite Nat.add_1_r; reflexivity).
  replace (existsb (fun l => Qeq_bool l 0) (piece lam s e)) with false.
  2:{ symmetry. apply Bool.not_true_is_false. intros K. apply existsb_exists in K. destruct K as (l & Il & K). apply Qeq_bool_iff in K.
      assert (J : In l lam). { rewrite <- (firstn_skipn s lam). apply in_or_app. right. rewrite <- (firstn_skipn (e + 1 - s) (skipn s lam)). apply in_or_app. left. exact Il. }
      apply In_nth_error in J. destruct J as (i & J). assert (a <= l)%Q by (eapply nondecreasing_mono; [apply increasing_weak, I|apply Nat.le_0_l|exact Fa|exact J]). lra. }
  assert (Lp : forall (A : Type) (v : list A), length v = length lam -> length (piece v s e) = e + 1 - s).
  { intros A v Lv. unfold piece. rewrite firstn_length, skipn_length. lia. }
  destruct (integrate_ok (piece lam s e) (map (fun p => snd p / fst p)%Q (combine (piece lam s e) (piece sed s e)))) as (r & Er & Vr).
  { rewrite map_length, combine_length, (Lp Q lam eq_refl), (Lp Q sed (eq_sym L)). lia. }
  { intros K. apply (f_equal (@length Q)) in K. rewrite (Lp Q lam eq_refl) in K. cbn in K. lia. }
  rewrite Er. cbn [omap obind]. exists s, e, r, x, y, z, w. repeat (split; [first [assumption|reflexivity]|]). exact Vr.
Qed.
Print Assumptions C101_luminosity.
(* NaN if the spectrum does not cover the interval *)
Theorem C101_luminosity_uncovered : forall lam sed l0 l1 a b, increasing lam -> first_last lam a b -> (l0 < a)%Q \/ (b < l1)%Q -> sed_luminosity lam sed l0 l1 = Ok None.
Proof.
  intros lam sed l0 l1 a b I [Fa Fb] H.
  destruct (lower_bound_ok qlt qlt_order lam l0 (nondecreasing_ascending lam (increasing_weak lam I))) as (os & Es & Ss).
  destruct (upper_bound_ok qlt qlt_order lam l1 (nondecreasing_ascending lam (increasing_weak lam I))) as (oe & Ee & Se).
  unfold sed_luminosity. rewrite Es, Ee. cbn [obind]. destruct H as [H|H].
  - destruct os as [s|]; [|reflexivity]. destruct Ss as ((x & X & Hx) & _). apply qlt_false in Hx.
    assert (a <= x)%Q by (eapply nondecreasing_mono; [apply increasing_weak, I|apply Nat.le_0_l|exact Fa|exact X]). lra.
  - destruct os as [s|]; [|reflexivity]. destruct oe as [e|]; [|reflexivity]. destruct Se as ((x & X & Hx) & _). apply qlt_true in Hx. pose proof (le_last [0%Q] ltac:(cbn; lia) lam b e x I Fb X). lra.
Qed.
Print Assumptions C101_luminosity_uncovered.
(* Finding: the interval is not cut at its ends: for sed = lam the luminosity should be l1 - l0, and
   is the size of the cells touched. *)
Theorem C101_luminosity_refuted : exists r, sed_luminosity [1; 4; 10]%Q [1; 4; 10]%Q 3%Q 5%Q = Ok (Some r) /\ (r == 9)%Q /\
  (area [1; 4; 10]%Q [1; 1; 1]%Q 3%Q 5%Q == 2)%Q.
Proof. eexists. split; [vm_compute; reflexivity|]. split; apply Qeq_bool_iff; vm_compute; reflexivity. Qed.
Print Assumptions C101_luminosity_refuted.
(* Finding: lir_8_1000 of a spectrum given up to exactly 1000 micron is NaN. *)
Theorem C101_lir_end_refuted : forall lam sed a, increasing lam -> first_last lam a 1000%Q -> lir_8_1000 lam sed = Ok None.
Proof.
  intros lam sed a I [Fa Fb]. unfold lir_8_1000, sed_luminosity.
  destruct (lower_bound_ok qlt qlt_order lam 8%Q (nondecreasing_ascending lam (increasing_weak lam I))) as (os & Es & Ss).
  destruct (upper_bound_ok qlt qlt_order lam 1000%Q (nondecreasing_ascending lam (increasing_weak lam I))) as (oe & Ee & Se).
  rewrite Es, Ee. cbn [obind]. destruct os as [s|]; [|reflexivity]. destruct oe as [e|]; [|reflexivity]. destruct Se as ((x & X & Hx) & _). apply qlt_true in Hx.
  pose proof (le_last [0%Q] ltac:(cbn; lia) lam 1000%Q e x I Fb X). lra.
Qed.
Print Assumptions C101_lir_end_refuted.
