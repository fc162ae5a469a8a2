(* C103: conversions of photometric units. *)
From Coq Require Import QArith Qfield Lqa Lia.
From Verif Require Import Base InterpModel UnitModel.
Local Open Scope Q_scope.

Lemma div_some a b : ~ b == 0 -> qdiv a b = Some (a / b).
Proof. intros N. unfold qdiv. destruct (Qeq_bool b 0) eqn:E; [apply Qeq_bool_iff in E; contradiction|reflexivity]. Qed.
Lemma div_none a b : b == 0 -> qdiv a b = None.
Proof. intros N. unfold qdiv. rewrite (proj2 (Qeq_bool_iff b 0) N). reflexivity. Qed.
Lemma mul_neq a b : ~ a == 0 -> ~ b == 0 -> ~ a * b == 0.
Proof. intros A B E. apply Qmult_integral in E. tauto. Qed.
Lemma mpc : ~ Mpc == 0. Proof. discriminate. Qed.
Lemma lsol : ~ Lsol == 0. Proof. discriminate. Qed.
Lemma ujy : ~ uJy == 0. Proof. discriminate. Qed.
Lemma lig : ~ light == 0. Proof. discriminate. Qed.
#[local] Hint Resolve mpc lsol ujy lig mul_neq : nz.
Ltac nz := repeat apply mul_neq; auto with nz; try discriminate.

(* the constants of lsun2uJy: microjansky per W/m2/Hz, watts per solar luminosity, micrometers per
   second, metres per megaparsec *)
Theorem C103_flux : forall dpi z d lam lum, ~ dpi == 0 -> ~ d == 0 -> exists f, lsun2uJy dpi z d lam lum = Some f /\
  f / 10 ^ 32 * (4 * dpi * ((d * (30856 * 10 ^ 18)) * (d * (30856 * 10 ^ 18)))) * (299790 * 10 ^ 9) == lum * (3839 * 10 ^ 23) * (lam * (1 + z)).
Proof.
  intros dpi z d lam lum P D. unfold lsun2uJy. rewrite div_some by nz. cbn [bind]. rewrite div_some by nz. eexists. split; [reflexivity|].
  unfold uJy, Lsol, light, Mpc. change (10 ^ 32) with (10 ^ 14 * 10 ^ 18). field. split; assumption.
Qed.
Print Assumptions C103_flux.
(* uJy2lsun takes the observed wavelength, (1+z) times that of lsun2uJy, and is then its inverse *)
Theorem C103_lsun_roundtrip : forall dpi z d lam lum, ~ dpi == 0 -> ~ d == 0 -> ~ lam == 0 -> ~ 1 + z == 0 ->
  exists f l, lsun2uJy dpi z d lam lum = Some f /\ uJy2lsun dpi z d ((1 + z) * lam) f = Some l /\ l == lum.
Proof.
  intros dpi z d lam lum P D L Z. unfold lsun2uJy, uJy2lsun. rewrite (div_some (uJy * Lsol)) by nz. cbn [bind]. rewrite (div_some _ (d * d)) by nz. eexists. eexists. split; [reflexivity|].
  rewrite div_some by nz. cbn [bind]. rewrite div_some by nz. split; [reflexivity|]. field. repeat split; auto with nz.
Qed.
Print Assumptions C103_lsun_roundtrip.
Theorem C103_ujy_roundtrip : forall dpi z d lam flx, ~ dpi == 0 -> ~ d == 0 -> ~ lam == 0 -> ~ 1 + z == 0 ->
  exists l f, uJy2lsun dpi z d ((1 + z) * lam) flx = Some l /\ lsun2uJy dpi z d lam l = Some f /\ f == flx.
Proof.
  intros dpi z d lam flx P D L Z. unfold lsun2uJy, uJy2lsun. rewrite (div_some (light * 4 * dpi * Mpc * Mpc)) by nz. cbn [bind]. rewrite (div_some _ ((1 + z) * lam)) by nz. eexists. eexists. split; [reflexivity|].
  rewrite div_some by nz. cbn [bind]. rewrite div_some by nz. split; [reflexivity|]. field. repeat split; auto with nz.
Qed.
Print Assumptions C103_ujy_roundtrip.

(* the decimal logarithm and the powers of ten: what matters here is that they are inverse *)
Definition decimal (log10 : Q -> option Q) (e10 : Q -> Q) : Prop :=
  (forall x y, x == y -> e10 x == e10 y) /\ (forall x, 0 < e10 x) /\
  (forall y, 0 < y -> exists x, log10 y = Some x /\ e10 x == y) /\
  (forall x y, y == e10 x -> exists l, log10 y = Some l /\ l == x).
Theorem C103_mag_roundtrip : forall log10 e10 x zp, decimal log10 e10 -> 0 < x -> exists m, uJy2mag log10 x zp = Some m /\ mag2uJy e10 m zp == x.
Proof.
  intros log10 e10 x zp (Ext & _ & Inv & _) H. destruct (Inv x H) as (l & E & V). unfold uJy2mag. rewrite E. cbn [bind]. eexists. split; [reflexivity|].
  unfold mag2uJy. rewrite <- V. apply Ext. ring.
Qed.
Print Assumptions C103_mag_roundtrip.
Theorem C103_flux_roundtrip : forall log10 e10 m zp, decimal log10 e10 -> exists m', uJy2mag log10 (mag2uJy e10 m zp) zp = Some m' /\ m' == m.
Proof.
  intros log10 e10 m zp (_ & _ & _ & Inv). unfold uJy2mag, mag2uJy. destruct (Inv ((2 # 5) * (zp - m)) _ (Qeq_refl _)) as (l & -> & V). cbn [bind]. eexists. split; [reflexivity|]. rewrite V. ring.
Qed.
Print Assumptions C103_flux_roundtrip.
(* the absolute magnitude is the magnitude of the flux at 10 parsec, z = 0 *)
Theorem C103_absolute : forall log10 e10 dpi lam lum zp, decimal log10 e10 -> 0 < dpi -> 0 < lam -> 0 < lum ->
  exists f m m', lsun2uJy dpi 0 (1 # 100000) lam lum = Some f /\ uJy2mag log10 f zp = Some m /\ lsun2mag log10 dpi lam lum zp = Some m' /\ m == m'.
Proof.
  intros log10 e10 dpi lam lum zp (Ext & Pos & Inv & Inv') P L U. assert (P' : ~ dpi == 0) by lra.
  unfold lsun2uJy, lsun2mag, factor10. rewrite (div_some _ (light * 4 * dpi * Mpc * Mpc)) by nz. cbn [bind]. rewrite div_some by discriminate. rewrite div_some by nz. cbn [bind].
  set (f := uJy * Lsol / (light * 4 * dpi * Mpc * Mpc) * (1 + 0) * lam * lum / ((1 # 100000) * (1 # 100000))).
  set (g := uJy * Lsol / (light * 4 * dpi * Mpc * Mpc * (1 # 100000) * (1 # 100000)) * lam * lum).
  assert (E : f == g) by (unfold f, g; field; repeat split; auto with nz).
  assert (G : 0 < g). { unfold g. apply Qmult_lt_0_compat; [apply Qmult_lt_0_compat; [|exact L]|exact U]. apply Qlt_shift_div_l; [|reflexivity]. rewrite !(Qmult_comm _ dpi), <- !Qmult_assoc. unfold light, Mpc. apply Qmult_lt_0_compat; [exact P|reflexivity]. }
  destruct (Inv g G) as (l & El & Vl). destruct (Inv' l f) as (l' & El' & Vl'); [rewrite E, Vl; reflexivity|].
  exists f. unfold uJy2mag. rewrite El, El'. cbn [bind]. do 2 eexists. split; [reflexivity|]. split; [reflexivity|]. split; [reflexivity|]. rewrite Vl'. reflexivity.
Qed.
Print Assumptions C103_absolute.
(* and mag2lsun is the inverse of lsun2mag *)
Theorem C103_lsunmag_roundtrip : forall log10 e10 dpi lam lum zp, decimal log10 e10 -> 0 < dpi -> 0 < lam -> 0 < lum ->
  exists m l, lsun2mag log10 dpi lam lum zp = Some m /\ mag2lsun e10 dpi lam m zp = Some l /\ l == lum.
Proof.
  intros log10 e10 dpi lam lum zp (Ext & Pos & Inv & Inv') P L U. assert (P' : ~ dpi == 0) by lra. assert (L' : ~ lam == 0) by lra.
  unfold lsun2mag, mag2lsun, factor10. rewrite div_some by nz. cbn [bind].
  set (k := uJy * Lsol / (light * 4 * dpi * Mpc * Mpc * (1 # 100000) * (1 # 100000))).
  assert (K : 0 < k). { unfold k. apply Qlt_shift_div_l; [|reflexivity]. rewrite !(Qmult_comm _ dpi), <- !Qmult_assoc. unfold light, Mpc. apply Qmult_lt_0_compat; [exact P|reflexivity]. }
  destruct (Inv (k * lam * lum)) as (l & -> & V). { apply Qmult_lt_0_compat; [apply Qmult_lt_0_compat|]; assumption. }
  cbn [bind]. eexists. eexists. split; [reflexivity|]. rewrite div_some by lra. cbn [bind]. rewrite div_some by exact L'. split; [reflexivity|].
  rewrite (Ext _ l) by ring. rewrite V. field. split; lra.
Qed.
Print Assumptions C103_lsunmag_roundtrip.
(* uJy2cgs takes the wavelength in micrometers and cgs2uJy in Angstrom: then they are inverse *)
Theorem C103_cgs_roundtrip : forall lam flx, ~ lam == 0 -> exists c f, uJy2cgs lam flx = Some c /\ cgs2uJy (10000 * lam) c = Some f /\ f == flx.
Proof.
  intros lam flx L. unfold uJy2cgs, cgs2uJy. rewrite (div_some _ (/ 10 ^ 6 * / 10 ^ 6)) by discriminate. cbn [bind]. rewrite (div_some _ (10 ^ 10)) by discriminate. cbn [bind]. rewrite !(div_some _ lam) by exact L. cbn [bind]. rewrite (div_some _ lam) by exact L.
  rewrite div_some by discriminate. cbn [bind]. do 2 eexists. split; [reflexivity|]. split; [reflexivity|]. field; exact L.
Qed.
Print Assumptions C103_cgs_roundtrip.
(* F_lambda = F_nu c / lambda^2, from erg/s/cm2/Hz to erg/s/cm2/Angstrom *)
Theorem C103_cgs : forall lam flx, ~ lam == 0 -> exists c, uJy2cgs lam flx = Some c /\
  c * (10 ^ 4 * lam) * (10 ^ 4 * lam) == flx / 10 ^ 29 * (29979 * 10 ^ 14).
Proof.
  intros lam flx L. unfold uJy2cgs. rewrite (div_some _ (/ 10 ^ 6 * / 10 ^ 6)) by discriminate. cbn [bind]. rewrite (div_some _ (10 ^ 10)) by discriminate. cbn [bind]. rewrite !(div_some _ lam) by exact L. cbn [bind]. rewrite (div_some _ lam) by exact L.
  eexists. split; [reflexivity|]. field; exact L.
Qed.
Print Assumptions C103_cgs.
(* Finding: with the same wavelength for both, as for the other conversions, the result is 10^8 times
   too small. *)
Theorem C103_cgs_refuted : forall lam flx, ~ lam == 0 -> exists c f, uJy2cgs lam flx = Some c /\ cgs2uJy lam c = Some f /\ f * 10 ^ 8 == flx.
Proof.
  intros lam flx L. unfold uJy2cgs, cgs2uJy. rewrite (div_some _ (/ 10 ^ 6 * / 10 ^ 6)) by discriminate. cbn [bind]. rewrite (div_some _ (10 ^ 10)) by discriminate. cbn [bind]. rewrite !(div_some _ lam) by exact L. cbn [bind]. rewrite (div_some _ lam) by exact L.
  rewrite div_some by discriminate. cbn [bind]. do 2 eexists. split; [reflexivity|]. split; [reflexivity|]. field; exact L.
Qed.
Print Assumptions C103_cgs_refuted.
(* inverse functions between all numbers and the positive ones *)
Definition ex_e10 (x : Q) : Q := if Qlt_le_dec x 0 then / (1 - x) else 1 + x.
Definition ex_log10 (y : Q) : option Q := if Qlt_le_dec 0 y then Some (if Qlt_le_dec y 1 then 1 - / y else y - 1) else None.
Lemma inv_pos a : 0 < a -> 0 < / a. Proof. apply Qinv_lt_0_compat. Qed.
Lemma inv_lt1 a : 1 < a -> / a < 1.
Proof. intros H. setoid_replace (/ a) with (1 / a) by (unfold Qdiv; ring). apply Qlt_shift_div_r; lra. Qed.
Lemma inv_gt1 a : 0 < a -> a < 1 -> 1 < / a.
Proof. intros H K. setoid_replace (/ a) with (1 / a) by (unfold Qdiv; ring). apply Qlt_shift_div_l; lra. Qed.
Lemma ex_e10_ext x y : x == y -> ex_e10 x == ex_e10 y.
Proof. intros E. unfold ex_e10. destruct (Qlt_le_dec x 0), (Qlt_le_dec y 0); try lra. rewrite E. reflexivity. Qed.
Example ex_decimal : decimal ex_log10 ex_e10.
Proof.
  split; [exact ex_e10_ext|]. split; [|split].
  - intros x. unfold ex_e10. destruct (Qlt_le_dec x 0); [apply inv_pos; lra|lra].
  - intros y H. unfold ex_log10. destruct (Qlt_le_dec 0 y); [|lra]. eexists. split; [reflexivity|]. unfold ex_e10. destruct (Qlt_le_dec y 1).
    + pose proof (inv_gt1 y H q0). destruct (Qlt_le_dec (1 - / y) 0); [|lra]. field. split; [lra|]. intros K. assert (y * (/ y) == 1) by (apply Qmult_inv_r; lra). lra.
    + destruct (Qlt_le_dec (y - 1) 0); [lra|]. ring.
  - intros x y E. unfold ex_log10. revert E. unfold ex_e10. destruct (Qlt_le_dec x 0); intros E.
    + assert (0 < / (1 - x)) by (apply inv_pos; lra). assert (/ (1 - x) < 1) by (apply inv_lt1; lra). destruct (Qlt_le_dec 0 y); [|lra]. destruct (Qlt_le_dec y 1); [|lra]. eexists. split; [reflexivity|]. rewrite E, Qinv_involutive. ring.
    + destruct (Qlt_le_dec 0 y); [|lra]. destruct (Qlt_le_dec y 1); [lra|]. eexists. split; [reflexivity|]. lra.
Qed.
Example ex_cgs : exists c, uJy2cgs 2 4 = Some c /\ c == 29979 # (10 ^ 23).
Proof. eexists. split; [reflexivity|]. apply Qeq_bool_iff. vm_compute. reflexivity. Qed.
