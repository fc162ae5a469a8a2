(* C127: the factor from an observed flux to a luminosity. *)
From Coq Require Import QArith Qfield Lqa Lia.
From Verif Require Import Base InterpModel InterpSpec IntegSpec FluxModel FluxSpec FluxProperties SconvModel SconvSpec.
From Verif Require UnitModel UnitProperties.
Local Open Scope nat_scope.

(* fluxes do not depend on how the rationals are written *)
Lemma flux_ext f lam s1 s2 : filter f -> increasing lam -> covers lam f -> length lam = length s1 -> length lam = length s2 ->
  (forall i a b, nth_error s1 i = Some a -> nth_error s2 i = Some b -> (a == b)%Q) ->
  exists r1 r2, sed2flux (fst f) (snd f) lam s1 = Ok (Some r1) /\ sed2flux (fst f) (snd f) lam s2 = Ok (Some r2) /\ (r1 == r2)%Q.
Proof.
  intros (If & L2 & Lf) Il (f0 & fl & l0 & ll & FF & FL & H0 & H1) A B Q.
  destruct (C101_linear (fst f) (snd f) lam s1 s2 1 (-1) f0 fl l0 ll If Il L2 Lf A B FF FL H0 H1) as (r & r1 & r2 & E & E1 & E2 & V).
  exists r1, r2. split; [exact E1|]. split; [exact E2|].
  assert (Ln : length lam = length (map (fun p => 1 * fst p + -1 * snd p)%Q (combine s1 s2))) by (rewrite map_length, combine_length, <- A, <- B; symmetry; apply Nat.min_id).
  assert (Z : forall v, In v (map (fun p => 1 * fst p + -1 * snd p)%Q (combine s1 s2)) -> (v == 0)%Q).
  { clear - Q. revert s2 Q. induction s1 as [|a s1 IH]; intros [|b s2] Q v I; try contradiction. destruct I as [<-|I].
    - cbn. rewrite (Q 0 a b eq_refl eq_refl). ring.
    - refine (IH s2 _ v I). intros i x y X Y. exact (Q (S i) x y X Y). }
  destruct (C101_flat (fst f) (snd f) lam _ f0 fl l0 ll 0 If Il L2 Lf Ln FF FL H0 H1 Z) as (r' & E' & V' & _).
  rewrite E in E'. injection E' as <-. lra.
Qed.
(* multiples *)
Lemma flux_scale f lam s t a : filter f -> increasing lam -> covers lam f -> length lam = length s -> length lam = length t ->
  (forall i u v, nth_error s i = Some u -> nth_error t i = Some v -> (v == a * u)%Q) ->
  exists r r', sed2flux (fst f) (snd f) lam s = Ok (Some r) /\ sed2flux (fst f) (snd f) lam t = Ok (Some r') /\ (r' == a * r)%Q.
Proof.
  intros F Il C A B Q.
  assert (Ln : length lam = length (map (fun p => a * fst p + 0 * snd p)%Q (combine s s))) by (rewrite map_length, combine_length, <- A; symmetry; apply Nat.min_id).
  destruct (flux_ext f lam t (map (fun p => a * fst p + 0 * snd p)%Q (combine s s)) F Il C B Ln) as (r1 & r2 & E1 & E2 & V).
  { clear - Q. revert t Q. induction s as [|u s IH]; intros [|v t] Q [|i] x y X Y; try discriminate; cbn in X, Y.
    - injection X as <-. injection Y as <-. rewrite (Q 0 u v eq_refl eq_refl). cbn. ring.
    - refine (IH t _ i x y X Y). intros j p q P P'. exact (Q (S j) p q P P'). }
  destruct F as (If & L2 & Lf), C as (f0 & fl & l0 & ll & FF & FL & H0 & H1).
  destruct (C101_linear (fst f) (snd f) lam s s a 0 f0 fl l0 ll If Il L2 Lf A A FF FL H0 H1) as (r & r3 & r4 & E & E3 & _ & V').
  rewrite E in E2. injection E2 as <-. exists r3, r1. split; [exact E3|]. split; [exact E1|]. lra.
Qed.
Lemma redshifted_increasing z lam : (0 < 1 + z)%Q -> increasing lam -> increasing (redshifted z lam).
Proof.
  intros Z I i a b. unfold redshifted. rewrite !nth_error_map.
  destruct (nth_error lam i) as [x|] eqn:X; [|discriminate]. destruct (nth_error lam (i + 1)) as [y|] eqn:Y; [|discriminate]. cbn.
  intros A B. injection A as <-. injection B as <-. apply Qmult_lt_compat_r; [exact Z|exact (I i x y X Y)].
Qed.
(* the fluxes of the model are those of the specification *)
Lemma fluxes_seen dpi z d lam sed : ~ (dpi == 0)%Q -> ~ (d == 0)%Q -> length lam = length sed ->
  exists flx, fluxes dpi z d lam sed = Ok (Some flx) /\ observed dpi z d lam sed flx.
Proof.
  intros P D L. unfold fluxes. rewrite (proj2 (Nat.eqb_eq _ _) L). cbn [check obind].
  cut (exists flx, all_some (map (fun p => UnitModel.lsun2uJy dpi z d (fst p) (snd p)) (combine lam sed)) = Some flx /\ observed dpi z d lam sed flx).
  { intros (flx & E & O). exists flx. rewrite E. split; [reflexivity|exact O]. }
  revert sed L. induction lam as [|l lam IH]; intros [|s sed] L; try discriminate.
  - exists []. split; [reflexivity|]. split; [reflexivity|]. intros [|i]; discriminate.
  - injection L as L. destruct (IH sed L) as (flx & E & N & O), (UnitProperties.C103_flux dpi z d l s P D) as (f & F & V).
    exists (f :: flx). cbn [combine map all_some fst snd]. rewrite F. cbn [all_some]. rewrite E. split; [reflexivity|]. split; [cbn; lia|].
    intros [|i] l' s' f' A B C; cbn in A, B, C.
    + injection A as <-. injection B as <-. injection C as <-. exact V.
    + exact (O i l' s' f' A B C).
Qed.
Lemma seen_unique dpi z d lam lum f g a : ~ (dpi == 0)%Q -> ~ (d == 0)%Q -> seen dpi z d lam lum f -> seen dpi z d lam (a * lum) g -> (g == a * f)%Q.
Proof.
  unfold seen. intros P D F G.
  assert (A : ~ (4 * dpi * ((d * (30856 * 10 ^ 18)) * (d * (30856 * 10 ^ 18))) == 0)%Q).
  { intros E. repeat (apply Qmult_integral in E; destruct E as [E|E]); try contradiction; discriminate. }
  assert (B : ~ (299790 * 10 ^ 9 == 0)%Q) by discriminate.
  assert (T : ~ (10 ^ 32 == 0)%Q) by discriminate.
  revert A B T F G. generalize (4 * dpi * ((d * (30856 * 10 ^ 18)) * (d * (30856 * 10 ^ 18))))%Q (299790 * 10 ^ 9)%Q (10 ^ 32)%Q (3839 * 10 ^ 23)%Q.
  intros k c t s A B T F G.
  setoid_replace g with ((g / t * k * c) * t / (k * c))%Q by (field; repeat split; assumption). rewrite G.
  setoid_replace f with ((f / t * k * c) * t / (k * c))%Q by (field; repeat split; assumption). rewrite F.
  field. split; assumption.
Qed.
(* the model, when both spectra have values in the filters *)
Lemma convert_run dpi from to z d lam sed flx : ~ (dpi == 0)%Q -> ~ (d == 0)%Q -> (0 < 1 + z)%Q -> length lam = length sed ->
  increasing lam -> filter from -> filter to -> covers (redshifted z lam) from -> covers lam to -> observed dpi z d lam sed flx ->
  exists f f' r, sed2flux (fst from) (snd from) (redshifted z lam) flx = Ok (Some f) /\ sed2flux (fst to) (snd to) lam sed = Ok (Some r) /\
    (f == f')%Q /\ sed_convert dpi from to z d lam sed = Ok (qdiv r f').
Proof.
  intros P D Z L Il F T CF CT (N & O). destruct (fluxes_seen dpi z d lam sed P D L) as (g & E & N' & O').
  assert (Lr : length (redshifted z lam) = length lam) by apply map_length.
  destruct (flux_ext from (redshifted z lam) flx g F (redshifted_increasing z lam Z Il) CF ltac:(congruence) ltac:(congruence)) as (f & f' & E1 & E2 & V).
  { intros i a b A B. assert (I : i < length lam) by (rewrite <- N; apply nth_error_Some; congruence).
    destruct (nth_error lam i) as [l|] eqn:X; [|apply nth_error_None in X; lia]. destruct (nth_error sed i) as [s|] eqn:Y; [|apply nth_error_None in Y; lia].
    assert (U : seen dpi z d l (1 * s) a) by (pose proof (O i l s a X Y A) as U; unfold seen in *; rewrite Qmult_1_l; exact U).
    rewrite (seen_unique dpi z d l s b a 1 P D (O' i l s b X Y B) U). ring. }
  destruct (flux_ext to lam sed sed T Il CT L L) as (r & _ & E3 & _).
  { intros i a b A B. rewrite A in B. injection B as ->. reflexivity. }
  exists f, f', r. repeat split; try assumption. unfold sed_convert. rewrite E. cbn [obind]. unfold redshifted in E2. rewrite E2. cbn [obind]. rewrite E3. reflexivity.
Qed.
Lemma observed_scale dpi z d lam sed flx a : length lam = length sed -> observed dpi z d lam sed flx -> observed dpi z d lam (map (Qmult a) sed) (map (Qmult a) flx).
Proof.
  intros L (N & O). split; [rewrite map_length; exact N|]. intros i l s f A B C. rewrite nth_error_map in B, C.
  destruct (nth_error sed i) as [s0|] eqn:Y; [|discriminate]. destruct (nth_error flx i) as [f0|] eqn:X; [|discriminate]. injection B as <-. injection C as <-.
  specialize (O i l s0 f0 A Y X). unfold seen in *. unfold Qdiv in *. rewrite <- !Qmult_assoc in *. rewrite O. ring.
Qed.
Lemma observed_distance dpi z d e lam sed flx : ~ (e == 0)%Q -> observed dpi z d lam sed flx -> observed dpi z (e * d) lam sed (map (Qmult (/ (e * e))) flx).
Proof.
  intros E (N & O). split; [rewrite map_length; exact N|]. intros i l s f A B C. rewrite nth_error_map in C.
  destruct (nth_error flx i) as [f0|] eqn:X; [|discriminate]. injection C as <-. specialize (O i l s f0 A B X). unfold seen in *. rewrite <- O.
  assert (T : ~ (10 ^ 32 == 0)%Q) by discriminate. revert T. generalize (299790 * 10 ^ 9)%Q (10 ^ 32)%Q (30856 * 10 ^ 18)%Q. intros c t m T. field. split; assumption.
Qed.
Lemma qdiv_same r r' f f' : (r == r')%Q -> (f == f')%Q -> ~ (f == 0)%Q -> exists k, qdiv r' f' = Some k /\ (k * f == r)%Q.
Proof.
  intros R F N. unfold qdiv. destruct (Qeq_bool f' 0) eqn:E; [apply Qeq_bool_iff in E; rewrite <- F in E; contradiction|].
  eexists. split; [reflexivity|]. rewrite <- R, <- F. field. exact N.
Qed.

(* the factor times the flux received in the first filter is the luminosity in the second, if there
   is flux in the first; without flux the factor is infinite or NaN *)
Theorem C127_convert : forall dpi from to z d lam sed flx, ~ (dpi == 0)%Q -> ~ (d == 0)%Q -> (0 < 1 + z)%Q -> length lam = length sed ->
  increasing lam -> filter from -> filter to -> covers (redshifted z lam) from -> covers lam to -> observed dpi z d lam sed flx ->
  exists f r, sed2flux (fst from) (snd from) (redshifted z lam) flx = Ok (Some f) /\ sed2flux (fst to) (snd to) lam sed = Ok (Some r) /\
    (~ (f == 0)%Q -> exists k, sed_convert dpi from to z d lam sed = Ok (Some k) /\ (k * f == r)%Q) /\
    ((f == 0)%Q -> sed_convert dpi from to z d lam sed = Ok None).
Proof.
  intros dpi from to z d lam sed flx P D Z L Il F T CF CT O.
  destruct (convert_run dpi from to z d lam sed flx P D Z L Il F T CF CT O) as (f & f' & r & E1 & E2 & V & E). exists f, r. split; [exact E1|]. split; [exact E2|]. split; intros N.
  - destruct (qdiv_same r r f f' (Qeq_refl r) V N) as (k & K & H). exists k. rewrite E, K. split; [reflexivity|exact H].
  - rewrite E. unfold qdiv. rewrite V in N. rewrite (proj2 (Qeq_bool_iff f' 0) N). reflexivity.
Qed.
Print Assumptions C127_convert.
(* there are such fluxes *)
Theorem C127_observed : forall dpi z d lam sed, ~ (dpi == 0)%Q -> ~ (d == 0)%Q -> length lam = length sed -> exists flx, observed dpi z d lam sed flx.
Proof. intros dpi z d lam sed P D L. destruct (fluxes_seen dpi z d lam sed P D L) as (flx & _ & O). exists flx. exact O. Qed.
Print Assumptions C127_observed.
(* the factor does not depend on the normalisation of the spectrum *)
Theorem C127_normalisation : forall dpi from to z d lam sed a k, ~ (dpi == 0)%Q -> ~ (d == 0)%Q -> (0 < 1 + z)%Q -> length lam = length sed ->
  increasing lam -> filter from -> filter to -> covers (redshifted z lam) from -> covers lam to -> ~ (a == 0)%Q ->
  sed_convert dpi from to z d lam sed = Ok (Some k) ->
  exists k', sed_convert dpi from to z d lam (map (Qmult a) sed) = Ok (Some k') /\ (k' == k)%Q.
Proof.
  intros dpi from to z d lam sed a k P D Z L Il F T CF CT A K. destruct (fluxes_seen dpi z d lam sed P D L) as (flx & _ & O).
  assert (L' : length lam = length (map (Qmult a) sed)) by (rewrite map_length; exact L).
  assert (Lr : length (redshifted z lam) = length lam) by apply map_length.
  destruct (C127_convert dpi from to z d lam sed flx P D Z L Il F T CF CT O) as (f & r & E1 & E2 & H & H0).
  destruct (C127_convert dpi from to z d lam _ _ P D Z L' Il F T CF CT (observed_scale dpi z d lam sed flx a L O)) as (f' & r' & E1' & E2' & H' & _).
  assert (Sc : forall u i x y, nth_error u i = Some x -> nth_error (map (Qmult a) u) i = Some y -> (y == a * x)%Q).
  { intros u i x y X Y. rewrite nth_error_map, X in Y. injection Y as <-. reflexivity. }
  destruct (flux_scale from (redshifted z lam) flx (map (Qmult a) flx) a F (redshifted_increasing z lam Z Il) CF) as (g & g' & G & G' & V); [rewrite (proj1 O); exact Lr|rewrite map_length, (proj1 O); exact Lr|apply Sc|].
  destruct (flux_scale to lam sed (map (Qmult a) sed) a T Il CT L L' (Sc sed)) as (q & q' & W & W' & U).
  rewrite E1 in G. injection G as <-. rewrite E1' in G'. injection G' as <-. rewrite E2 in W. injection W as <-. rewrite E2' in W'. injection W' as <-.
  destruct (Qeq_dec f 0) as [N|N]; [rewrite (H0 N) in K; discriminate|].
  destruct (H N) as (k1 & K1 & M). rewrite K1 in K. injection K as ->.
  assert (N' : ~ (f' == 0)%Q) by (rewrite V; intros X; apply Qmult_integral in X; tauto).
  destruct (H' N') as (k' & K' & M'). exists k'. split; [exact K'|].
  rewrite U, V, <- M in M'. apply (Qmult_inj_r _ _ (a * f)); [rewrite <- V; exact N'|]. rewrite M'. ring.
Qed.
Print Assumptions C127_normalisation.
(* it grows with the square of the distance *)
Theorem C127_distance : forall dpi from to z d e lam sed k, ~ (dpi == 0)%Q -> ~ (d == 0)%Q -> (0 < 1 + z)%Q -> length lam = length sed ->
  increasing lam -> filter from -> filter to -> covers (redshifted z lam) from -> covers lam to -> ~ (e == 0)%Q ->
  sed_convert dpi from to z d lam sed = Ok (Some k) ->
  exists k', sed_convert dpi from to z (e * d) lam sed = Ok (Some k') /\ (k' == e * e * k)%Q.
Proof.
  intros dpi from to z d e lam sed k P D Z L Il F T CF CT A K. destruct (fluxes_seen dpi z d lam sed P D L) as (flx & _ & O).
  assert (Lr : length (redshifted z lam) = length lam) by apply map_length.
  assert (D' : ~ (e * d == 0)%Q) by (intros X; apply Qmult_integral in X; tauto).
  assert (A' : ~ (e * e == 0)%Q) by (intros X; apply Qmult_integral in X; tauto).
  destruct (C127_convert dpi from to z d lam sed flx P D Z L Il F T CF CT O) as (f & r & E1 & E2 & H & H0).
  destruct (C127_convert dpi from to z (e * d) lam sed _ P D' Z L Il F T CF CT (observed_distance dpi z d e lam sed flx A O)) as (f' & r' & E1' & E2' & H' & _).
  destruct (flux_scale from (redshifted z lam) flx (map (Qmult (/ (e * e))) flx) (/ (e * e)) F (redshifted_increasing z lam Z Il) CF) as (g & g' & G & G' & V); [rewrite (proj1 O); exact Lr|rewrite map_length, (proj1 O); exact Lr| |].
  { intros i x y X Y. rewrite nth_error_map, X in Y. injection Y as <-. reflexivity. }
  rewrite E1 in G. injection G as <-. rewrite E1' in G'. injection G' as <-. rewrite E2 in E2'. injection E2' as <-.
  destruct (Qeq_dec f 0) as [N|N]; [rewrite (H0 N) in K; discriminate|].
  destruct (H N) as (k1 & K1 & M). rewrite K1 in K. injection K as ->.
  assert (Vf : (f == e * e * f')%Q) by (rewrite V; field; exact A).
  assert (N' : ~ (f' == 0)%Q) by (intros X; apply N; rewrite Vf, X; ring).
  destruct (H' N') as (k' & K' & M'). exists k'. split; [exact K'|].
  apply (Qmult_inj_r _ _ f' N'). rewrite M', <- M, Vf. ring.
Qed.
Print Assumptions C127_distance.
(* NaN if the received wavelengths do not cover the first filter, or the emitted ones the second *)
Theorem C127_uncovered : forall dpi from to z d lam sed, ~ (dpi == 0)%Q -> ~ (d == 0)%Q -> (0 < 1 + z)%Q -> length lam = length sed ->
  increasing lam -> filter from -> filter to ->
  (cut (redshifted z lam) from /\ (covers lam to \/ cut lam to)) \/ (covers (redshifted z lam) from /\ cut lam to) ->
  sed_convert dpi from to z d lam sed = Ok None.
Proof.
  intros dpi from to z d lam sed P D Z L Il F T C. destruct (fluxes_seen dpi z d lam sed P D L) as (g & E & N & _).
  assert (Lr : length (redshifted z lam) = length lam) by apply map_length. assert (Lg : length (redshifted z lam) = length g) by congruence.
  assert (X : forall fi la s, filter fi -> increasing la -> length la = length s -> cut la fi -> sed2flux (fst fi) (snd fi) la s = Ok None).
  { intros fi la s (If & L2 & Lf) Ia Ls (f0 & fl & l0 & ll & FF & FL & H). exact (C101_uncovered _ _ la s f0 fl l0 ll If Ia L2 Lf Ls FF FL H). }
  assert (Y : forall fi la s, filter fi -> increasing la -> length la = length s -> covers la fi -> exists r, sed2flux (fst fi) (snd fi) la s = Ok (Some r)).
  { intros fi la s Fi Ia Ls Ci. destruct (flux_ext fi la s s Fi Ia Ci Ls Ls) as (r & _ & R & _); [|exists r; exact R]. intros i a b A B. rewrite A in B. injection B as ->. reflexivity. }
  pose proof (redshifted_increasing z lam Z Il) as Ir.
  unfold sed_convert. rewrite E. cbn [obind]. change (map (fun l => l * (1 + z))%Q lam) with (redshifted z lam).
  destruct C as [[C [C'|C']]|[C C']].
  - rewrite (X from _ g F Ir Lg C). cbn [obind]. destruct (Y to lam sed T Il L C') as (r & R). rewrite R. reflexivity.
  - rewrite (X from _ g F Ir Lg C). cbn [obind]. rewrite (X to lam sed T Il L C'). reflexivity.
  - destruct (Y from _ g F Ir Lg C) as (f & R). rewrite R. cbn [obind]. rewrite (X to lam sed T Il L C'). reflexivity.
Qed.
Print Assumptions C127_uncovered.
(* Finding: a spectrum that is received entirely before the first filter is read beyond its end. *)
Theorem C127_before_UB : forall dpi from to z d lam sed f0 l0 ll, ~ (dpi == 0)%Q -> ~ (d == 0)%Q -> (0 < 1 + z)%Q -> length lam = length sed ->
  increasing lam -> length (fst from) = length (snd from) -> nth_error (fst from) 0 = Some f0 -> first_last lam l0 ll -> (ll * (1 + z) <= f0)%Q ->
  sed_convert dpi from to z d lam sed = UB.
Proof.
  intros dpi from to z d lam sed f0 l0 ll P D Z L Il Lf F0 [L0 Ll] H. destruct (fluxes_seen dpi z d lam sed P D L) as (g & E & N & _).
  assert (Lr : length (redshifted z lam) = length lam) by apply map_length.
  assert (FL : first_last (redshifted z lam) (l0 * (1 + z))%Q (ll * (1 + z))%Q).
  { split; [|rewrite Lr]; unfold redshifted; rewrite nth_error_map; [rewrite L0|rewrite Ll]; reflexivity. }
  unfold sed_convert. rewrite E. cbn [obind]. change (map (fun l => l * (1 + z))%Q lam) with (redshifted z lam).
  rewrite (C101_before_UB (fst from) (snd from) (redshifted z lam) g f0 _ _ (redshifted_increasing z lam Z Il) Lf ltac:(congruence) F0 FL H). reflexivity.
Qed.
Print Assumptions C127_before_UB.
(* wavelengths and luminosities must be as many *)
Theorem C127_sizes : forall dpi from to z d lam sed, length lam <> length sed -> sed_convert dpi from to z d lam sed = CheckFail.
Proof. intros dpi from to z d lam sed N. unfold sed_convert, fluxes. rewrite (proj2 (Nat.eqb_neq _ _) N). reflexivity. Qed.
Print Assumptions C127_sizes.

(* a spectrum that grows with the wavelength, at redshift 1 and one megaparsec, in filters of
   constant response; with 3 for pi *)
Definition flat_filter (a b : Q) : list Q * list Q := ([a; b], [1%Q; 1%Q]).
Example C127_example_covers : covers (redshifted 1 [1%Q; 2%Q; 4%Q]) (flat_filter 4 6) /\ covers [1%Q; 2%Q; 4%Q] (flat_filter 2 3).
Proof.
  split.
  - exists 4%Q, 6%Q, (1 * (1 + 1))%Q, (4 * (1 + 1))%Q. repeat split; cbn; lra.
  - exists 2%Q, 3%Q, 1%Q, 4%Q. repeat split; cbn; lra.
Qed.
Example C127_example_short : sed_convert 3 (flat_filter 4 9) (flat_filter 2 3) 1 1 [1%Q; 2%Q; 4%Q] [1%Q; 2%Q; 4%Q] = Ok None.
Proof. vm_compute. reflexivity. Qed.
Example C127_example_value : exists k, sed_convert 3 (flat_filter 4 6) (flat_filter 2 3) 1 1 [1%Q; 2%Q; 4%Q] [1%Q; 1%Q; 1%Q] = Ok (Some k) /\ (0 < k)%Q.
Proof. eexists. split; [vm_compute; reflexivity|reflexivity]. Qed.
