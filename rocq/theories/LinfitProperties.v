(* Theorems on linear fits: linfit() and linfit_pack() (C72), linfit_batch (C73), linfit_nn() (C74). *)
From Coq Require Import QArith Qreduction.
From Verif Require Import Base ImageModel ImageSpec MatModel LinfitModel.
From mathcomp Require Import all_ssreflect all_algebra.
From Verif Require Import MatSpec LinfitSpec LinfitProofs3 LinfitProofs4 LinfitProofs5 LinfitProofs6 LinfitProofs7.
Set Implicit Arguments.
Unset Strict Implicit.
Unset Printing Implicit Defensive.
Import Order.Theory GRing.Theory Num.Theory.
Local Open Scope ring_scope.

(* ---- C72: linfit(y, ye, x1, x2, ...) ---- *)
(* y is a vec of dims D; the error and the models are vecs of the same dims or scalars; no error is 0.
   success is true exactly when the models are linearly independent; then the parameters are the only
   minimum of chi2, chi2 is its value there, cov is the inverse of the curvature matrix and the errors
   are the roots of its diagonal.  Otherwise chi2, parameters and errors are all NaN. *)
Theorem C72_linfit (R : rcfType) (D : list nat) (yl : list R) (ye : arg R) (ts : list (arg R)) :
  let n := nprod D in let p := length ts in
  fits p n -> fits p p -> length yl = n -> arg_ok D ye -> (forall t, List.In t ts -> arg_ok D t) ->
  no_zero (row_of n ye) ->
  exists r, linfit_real (AV D yl) ye ts = Ok r /\ fitted (rows_of p n ts) (row_of n (AV D yl)) (row_of n ye) r.
Proof. exact: linfit_fitted. Qed.
Print Assumptions C72_linfit.

(* data that are exactly a combination of independent models: the coefficients are found and chi2 is 0 *)
Theorem C72_linfit_exact (R : rcfType) (D : list nat) (yl : list R) (ye : arg R) (ts : list (arg R)) (a : 'cV[R]_(length ts)) :
  let n := nprod D in let p := length ts in
  fits p n -> fits p p -> length yl = n -> arg_ok D ye -> (forall t, List.In t ts -> arg_ok D t) ->
  no_zero (row_of n ye) -> independent (rows_of p n ts) ->
  (forall m : 'I_n, seq.nth 0 yl m = \sum_(i < p) a i 0 * arg_at (seq.nth (AS 0) ts i) m) ->
  exists r, linfit_real (AV D yl) ye ts = Ok r /\ success r = true /\ is_vec (params r) (map_mx Some a) /\ chi2 r = Some 0.
Proof.
move=> n p Fn Fp Ly He Hts nz Hi Hy; have [r [E [S [H _]]]] := linfit_fitted Fn Fp Ly He Hts nz; exists r; split=> //.
have Sr : success r = true by apply/S.
split=> //; have [a' [s [C [P [_ [_ [M [X _]]]]]]]] := H Sr.
have Z : chi2_of (rows_of p n ts) (row_of n (AV D yl)) (row_of n ye) a = 0.
  rewrite /chi2_of big1 // => m _; rewrite mxE /= Hy.
  have -> : \sum_(i < p) a i 0 * rows_of p n ts i m = \sum_(i < p) a i 0 * arg_at (seq.nth (AS 0) ts i) m.
    by apply: eq_bigr => i _; rewrite mxE.
  by rewrite subrr mul0r expr0n.
have Ea : a = a'.
  apply/eqP/negPn/negP => /eqP ne; have := M a ne; rewrite Z ltNge; case/negP.
  by apply: sumr_ge0 => m _; exact: sqr_ge0.
by rewrite -Ea in P X; rewrite X Z.
Qed.
Print Assumptions C72_linfit_exact.

(* linfit_pack(y, ye, x): the i-th model is x(i,_) *)
Theorem C72_linfit_pack (R : rcfType) (D : list nat) (y es x : list R) (p : nat) : let n := nprod D in
  length y = n -> length es = n -> length x = (p * n)%N -> fits p n -> fits p p -> no_zero (row_of n (AV D es)) ->
  exists r, linfit_pack_real D y D es (p :: D) x = Ok r /\
    fitted (\matrix_(i < p, m < n) seq.nth 0 x (i * n + m)) (row_of n (AV D y)) (row_of n (AV D es)) r.
Proof.
move=> n Ly Le Lx Fn Fp nz; rewrite (pack_eq Ly Le Lx Fn).
have Lp : length (parts D x p) = p by rewrite lengthE size_map size_iota.
have Fn' : fits (length (parts D x p)) n by rewrite Lp.
have Fp' : fits (length (parts D x p)) (length (parts D x p)) by rewrite Lp.
have [r [E H]] := @linfit_fitted R D y (AV D es) (parts D x p) Fn' Fp' Ly (conj erefl Le) (fun t => parts_ok Lx) nz; exists r; split=> //.
move: H; rewrite Lp; suff -> : rows_of p n (parts D x p) = \matrix_(i < p, m < n) seq.nth 0 x (i * n + m) by [].
by apply/matrixP => i m; rewrite !mxE parts_nth // part_at.
Qed.
Print Assumptions C72_linfit_pack.
(* which is linfit() of the rows of x *)
Theorem C72_linfit_pack_rows (R : rcfType) (D : list nat) (y es x : list R) (p : nat) :
  length y = nprod D -> length es = nprod D -> length x = (p * nprod D)%N -> fits p (nprod D) ->
  linfit_pack_real D y D es (p :: D) x =
  linfit_real (AV D y) (AV D es) [seq AV D (take (nprod D) (drop (i * nprod D) x)) | i <- iota 0 p].
Proof. exact: pack_eq. Qed.
Print Assumptions C72_linfit_pack_rows.

(* dims of x that are not those of y and of the errors, but for the first one: refused *)
Theorem C72_linfit_pack_mismatch_refused (R : rcfType) (dy : list nat) (y : list R) (de : list nat) (es : list R) (p : nat) (dx : list nat)
    (x : list R) : length dy = length dx -> length de = length dx -> dy <> dx \/ de <> dx ->
  linfit_pack_real dy y de es (p :: dx) x = CheckFail.
Proof. exact: pack_mismatch. Qed.
Print Assumptions C72_linfit_pack_mismatch_refused.
(* an error or a model that is a vec with another number of elements than y: refused *)
Theorem C72_linfit_sizes_refused (R : rcfType) (y ye : arg R) (ts : list (arg R)) d l : (0 < arg_size y)%N ->
  List.In (AV d l) (ye :: ts) -> length l <> arg_size y -> linfit_real y ye ts = CheckFail.
Proof. by move=> n0 Hin Hl; rewrite /linfit_real /linfit /linfit_cache (check_sizes n0 Hin Hl). Qed.
Print Assumptions C72_linfit_sizes_refused.
(* Finding: with a scalar error the dims of the models are not looked at, only their number of
   elements: the models of transposed images are silently accepted for the image they do not match.
   With a vec error the same call is refused. *)
Theorem C72_linfit_dims_refuted (R : rcfType) (D d : list nat) (yl l es : list R) (e : R) : d <> D ->
  (length l = length yl)%N -> length es = length yl -> (0 < length yl)%N -> fits 1 (length yl) ->
  linfit_real (AV D yl) (AS e) [:: AV d l] = linfit_real (AV D yl) (AS e) [:: AV D l] /\
  linfit_real (AV D yl) (AV D es) [:: AV d l] = CheckFail.
Proof.
move=> ne Ll Le n0 Hf; split; first by [].
rewrite /linfit_real /linfit /linfit_cache /linfit_check /same_dims /= Ll Le PeanoNat.Nat.eqb_refl /= orbT.
rewrite ImageProofs.filled_ok //=.
by case: List.list_eq_dec.
Qed.
Print Assumptions C72_linfit_dims_refuted.

(* ---- C73: linfit_batch ---- *)
(* a batch can always be made, its models can always be changed and fit() always answers *)
Theorem C73_batch_new (R : rcfType) (D : list nat) (es : list R) (ts : list (arg R)) : length es = nprod D ->
  (forall t, List.In t ts -> arg_ok D t) -> fits (length ts) (nprod D) -> fits (length ts) (length ts) ->
  exists b, linfit_batch_real (AV D es) ts = Ok b /\ session D es ts b.
Proof.
by move=> Le Hts Hf Fp; have [b [E _]] := new_ok Le Hts Hf Fp; exists b; split=> //; exact: S_new.
Qed.
Print Assumptions C73_batch_new.
Theorem C73_batch_update (R : rcfType) (D : list nat) (es : list R) (ts : list (arg R)) b i x : length es = nprod D -> (0 < nprod D)%N ->
  fits (length ts) (nprod D) -> fits (length ts) (length ts) -> session D es ts b -> length x = nprod D -> (i < length ts)%N ->
  exists b', update_model_real b i x = Ok b' /\ session D es (upd ts i (AV D x)) b'.
Proof.
move=> Le n0 Hf Fp S Lx ip; have [H _] := session_inv Le n0 S Hf Fp erefl.
have Lx' : (nprod D <= length x)%N by rewrite Lx.
have [b' [E _]] := update_model_ok Le Fp H ip Lx'; exists b'; split=> //.
have := S_update S E Lx'; by rewrite /vec_of -Lx take_size.
Qed.
Print Assumptions C73_batch_update.

(* after any sequence of updates of the models and of fits, fit(y) answers what linfit() would with
   the current models *)
Theorem C73_batch_fit (R : rcfType) (D : list nat) (es : list R) (ts : list (arg R)) b (yl : list R) : length es = nprod D ->
  (0 < nprod D)%N -> fits (length ts) (nprod D) -> fits (length ts) (length ts) -> session D es ts b -> length yl = nprod D ->
  exists b' r, fit_real b (AV D yl) = Ok b' /\ session D es ts b' /\ linfit_real (AV D yl) (AV D es) ts = Ok r /\
    success (b_fr b') = success r /\ chi2 (b_fr b') = chi2 r /\ params (b_fr b') = params r /\
    errors (b_fr b') = errors r /\ (success r = true -> cov (b_fr b') = cov r).
Proof.
move=> Le n0 Hf Fp S Ly; have H := session_inv Le n0 S Hf Fp erefl.
have [c [Ec Hc]] := @linfit_cache_ok R D yl (AV D es) ts Hf Ly (conj erefl Le) (session_args S).
have [q [Eq Hq]] := @wvec_div R D (AV D yl) (AV D es) (conj erefl Ly) (conj erefl Le) (fun x => ltac:(discriminate)).
have [r [Er _]] := LinfitProofs2.linfit_do_mx Fp Hc Eq Hq.
have [b' [Eb Hb]] := fit_linfit Le Fp H Ly n0 Hc Eq Hq Er.
exists b', r; split=> //; split; first exact: S_fit S Eb Ly; split=> //.
by rewrite /linfit_real /linfit Ec.
Qed.
Print Assumptions C73_batch_fit.
(* so does fit_nochi2(), but for chi2, that it leaves as it was *)
Theorem C73_batch_fit_nochi2 (R : rcfType) (D : list nat) (es : list R) (ts : list (arg R)) b (yl : list R) : length es = nprod D ->
  (0 < nprod D)%N -> fits (length ts) (nprod D) -> fits (length ts) (length ts) -> session D es ts b -> length yl = nprod D ->
  exists b' r, fit_nochi2_real b (AV D yl) = Ok b' /\ session D es ts b' /\ linfit_real (AV D yl) (AV D es) ts = Ok r /\
    success (b_fr b') = success r /\ chi2 (b_fr b') = chi2 (b_fr b) /\ params (b_fr b') = params r /\
    errors (b_fr b') = errors r /\ (success r = true -> cov (b_fr b') = cov r).
Proof.
move=> Le n0 Hf Fp S Ly; have [b' [r [E [_ [Er [E1 [E2 [E3 [E4 E5]]]]]]]]] := C73_batch_fit Le n0 Hf Fp S Ly.
have [b1 [Eb1 Eb2]] := LinfitProofs.fit_steps _ _ _ _ _ _ _ _ E.
have [K1 [K2 [K3 K4]]] := LinfitProofs.update_chi2_keeps _ _ _ _ _ _ _ _ Eb2.
exists b1, r; split=> //; split; first exact: S_nochi2 S Eb1 Ly; split=> //.
by rewrite -K1 -K2 -K3 -K4 (LinfitProofs.fit_nochi2_keeps _ _ _ _ _ _ _ Eb1).
Qed.
Print Assumptions C73_batch_fit_nochi2.
(* linfit_pack_batch(ye, x) is linfit_batch() of the rows of x *)
Theorem C73_pack_batch (R : rcfType) (D D' : list nat) (es x : list R) (p : nat) : length es = nprod D -> nprod D' = nprod D ->
  length x = (p * nprod D)%N -> fits p (nprod D) ->
  linfit_pack_batch_real D es (p :: D') x =
  linfit_batch_real (AV D es) [seq AV D (take (nprod D) (drop (i * nprod D) x)) | i <- iota 0 p].
Proof. exact: pack_batch_eq. Qed.
Print Assumptions C73_pack_batch.

(* a model that does not exist cannot be changed *)
Theorem C73_update_range_refused (R : rcfType) (D : list nat) (es : list R) (ts : list (arg R)) b i x : length es = nprod D ->
  (0 < nprod D)%N -> fits (length ts) (nprod D) -> fits (length ts) (length ts) -> session D es ts b -> (length ts <= i)%N ->
  update_model_real b i x = CheckFail.
Proof.
by move=> Le n0 Hf Fp S pi; have [H _] := session_inv Le n0 S Hf Fp erefl; exact: update_model_bound H pi.
Qed.
Print Assumptions C73_update_range_refused.
(* Finding: update_model() does not check the size of the new model.  A model with too few elements is
   read past its end; the elements of a model with too many are ignored. *)
Theorem C73_update_short_UB (R : rcfType) (D : list nat) (es : list R) (ts : list (arg R)) b i x : length es = nprod D ->
  (0 < nprod D)%N -> fits (length ts) (nprod D) -> fits (length ts) (length ts) -> session D es ts b -> (i < length ts)%N ->
  ((length x < nprod D)%N -> update_model_real b i x = UB) /\
  ((nprod D <= length x)%N -> update_model_real b i x = update_model_real b i (take (nprod D) x)).
Proof.
move=> Le n0 Hf Fp S ip; have [H _] := session_inv Le n0 S Hf Fp erefl; split; first exact: update_short Le H ip.
move=> nx; case: (H) => [Hy [Hc _]]; rewrite /update_model_real /update_model /update_model_ Hy /=.
have [Hr [Hn _]] := proj1 (MatProofs3.is_matP _ _) Hc; rewrite Hr Hn; case: (check _) => //= _.
suff -> : forall d, ofold (fun d j => Base.obind (oget x j) (fun a => Base.obind (oget es j) (fun e => pset (nprod D) d i j (a / e)))) (List.seq 0 (nprod D)) d =
   ofold (fun d j => Base.obind (oget (take (nprod D) x) j) (fun a => Base.obind (oget es j) (fun e => pset (nprod D) d i j (a / e)))) (List.seq 0 (nprod D)) d by [].
have : forall j, List.In j (List.seq 0 (nprod D)) -> (j < nprod D)%N by move=> j /List.in_seq [_ /ssrnat.ltP].
elim: (List.seq 0 _) => //= j l IH Hj d; have jn := Hj j (or_introl erefl).
have -> : oget (take (nprod D) x) j = oget x j.
  rewrite !ogetE ?nth_take ?(leq_trans jn nx) // lengthE size_take.
  by case: ifP => // _; rewrite -lengthE (leq_trans jn nx).
case: (oget x j) => //= a; case: (oget es j) => //= e; case: (pset _ _ _ _ _) => //= d'.
by apply: IH => k Hk; apply: Hj; right.
Qed.
Print Assumptions C73_update_short_UB.
(* Finding: update_chi2() before any fit reads the parameters, that are still an empty vec. *)
Theorem C73_update_chi2_first_UB (R : rcfType) (D : list nat) (es : list R) (ts : list (arg R)) b y : length es = nprod D ->
  (0 < nprod D)%N -> (0 < length ts)%N -> fits (length ts) (nprod D) -> fits (length ts) (length ts) ->
  (forall t, List.In t ts -> arg_ok D t) -> linfit_batch_real (AV D es) ts = Ok b -> success (b_fr b) = true ->
  update_chi2_real b y = UB.
Proof.
move=> Le n0 p0 Hf Fp Hts E S; have [b' [E' [[H _] P]]] := new_ok Le Hts Hf Fp.
have Eb : b = b' by move: E'; rewrite E => -[].
by rewrite Eb in S *; exact: chi2_before_fit Le H p0 n0 (P S).
Qed.
Print Assumptions C73_update_chi2_first_UB.
(* Finding: linfit_pack_batch() does not check the dims of x: when its rows are shorter than the
   errors, x is read past its end. *)
Theorem C73_pack_batch_short_UB (R : rcfType) (D D' : list nat) (es x : list R) (p : nat) : length es = nprod D ->
  (0 < p)%N -> (nprod D' < nprod D)%N -> length x = (p * nprod D')%N -> fits p (nprod D) ->
  linfit_pack_batch_real D es (p :: D') x = UB.
Proof.
move=> Le p0 L Lx Hf; rewrite /linfit_pack_batch_real /linfit_pack_batch Le ImageProofs.filled_ok //=.
rewrite pack_batch_UB //; first exact: leq_ltn_trans L.
rewrite Lx -{1}(subnK p0) mulnDl leq_add2l mul1n -ltnS; apply: leq_trans L _; by rewrite subn1 leqSpred.
Qed.
Print Assumptions C73_pack_batch_short_UB.
(* Finding: the number of points of a batch is the size of the errors, so a batch with a scalar error
   has one point, and refuses every model that is a vec, unless it has one element. *)
Theorem C73_batch_scalar_error_refused (R : rcfType) (e : R) (ts : list (arg R)) d l : fits (length ts) 1 ->
  List.In (AV d l) ts -> length l <> 1%N -> linfit_batch_real (AS e) ts = CheckFail.
Proof.
move=> Hb Hin Hl; rewrite /linfit_batch_real /linfit_batch /=.
rewrite ImageProofs.filled_ok //.
suff H : forall c i, nr c = (i + length ts)%N -> nc c = 1%N -> length (pix c) = nr c ->
   make_cache (fun a b : R => a / b) c (AS e) i ts = CheckFail.
  by rewrite /= H //= List.repeat_length PeanoNat.Nat.mul_1_r.
elim: ts Hin {Hb} => [//|t ts IH] /= Hin c i Hr Hc Lc.
case: t Hin => [x|d' l'] Hin /=; rewrite /set_row Hc.
- case: Hin => [//|Hin].
  have jb : (i * 1 + 0 <? length (pix c))%nat = true.
    by apply/PeanoNat.Nat.ltb_lt/ssrnat.ltP; rewrite Lc Hr muln1 addn0 -addSnnS leq_addr.
  rewrite /= /pset /oset jb /=; apply: (IH Hin) => //=; first by rewrite Hr -addSnnS -addn1.
  by rewrite upd_length.
case: l' Hin => [|x [|z l']] Hin //=.
case: Hin => [[_ E]|Hin]; first by rewrite -E in Hl.
have jb : (i * 1 + 0 <? length (pix c))%nat = true.
  by apply/PeanoNat.Nat.ltb_lt/ssrnat.ltP; rewrite Lc Hr muln1 addn0 -addSnnS leq_addr.
rewrite /= /pset /oset jb /=; apply: (IH Hin) => //=; first by rewrite Hr -addSnnS -addn1.
by rewrite upd_length.
Qed.
Print Assumptions C73_batch_scalar_error_refused.

(* ---- C74: linfit_nn(y, ye, x1, x2, ...) ---- *)
(* When no two models are anti-correlated and every model overlaps with one that is correlated with the
   data, whatever the largest number of iterations and the tolerance: the parameters are finite, positive
   for the models that are correlated with the data and 0 for the others; chi2 is theirs, and is not
   larger than the one of the first guess, 1 or 0 for every model. *)
Theorem C74_linfit_nn (R : rcfType) (D : list nat) (yl : list R) (ye : arg R) (ts : list (arg R)) (k : nat) (tol : R) :
  let n := nprod D in let p := length ts in
  let X := rows_of p n ts in let y := row_of n (AV D yl) in let e := row_of n ye in
  fits p n -> fits p p -> length yl = n -> arg_ok D ye -> (forall t, List.In t ts -> arg_ok D t) -> nn_usable X y e ->
  exists r, linfit_nn_real k tol (AV D yl) ye ts = Ok r /\ nn_fitted X y e r.
Proof.
move=> n p X y e Fn Fp Ly He Hts U.
by have [[r [E [H _]]] _] := linfit_nn_fitted k tol Fn Fp Ly He Hts U; exists r.
Qed.
Print Assumptions C74_linfit_nn.
(* and when, with tolerance 0, one more iteration does not change the parameters, they are the best of
   all those that are not negative *)
Theorem C74_linfit_nn_optimal (R : rcfType) (D : list nat) (yl : list R) (ye : arg R) (ts : list (arg R)) (k : nat) r r' :
  let n := nprod D in let p := length ts in
  let X := rows_of p n ts in let y := row_of n (AV D yl) in let e := row_of n ye in
  fits p n -> fits p p -> length yl = n -> arg_ok D ye -> (forall t, List.In t ts -> arg_ok D t) -> nn_usable X y e ->
  linfit_nn_real k 0 (AV D yl) ye ts = Ok r -> linfit_nn_real k.+1 0 (AV D yl) ye ts = Ok r' -> n_params r = n_params r' ->
  exists v, is_vec (n_params r) (map_mx Some v) /\
    forall u : 'cV[R]_p, (forall i, 0 <= u i 0) -> chi2_of X y e v <= chi2_of X y e u.
Proof.
move=> n p X y e Fn Fp Ly He Hts U.
by have [_ H] := linfit_nn_fitted k 0 Fn Fp Ly He Hts U; exact: H.
Qed.
Print Assumptions C74_linfit_nn_optimal.
(* linfit_nn_pack(y, ye, x) is linfit_nn() of the rows of x *)
Theorem C74_linfit_nn_pack (R : rcfType) (D : list nat) (y es x : list R) (p k : nat) (tol : R) :
  length y = nprod D -> length es = nprod D -> length x = (p * nprod D)%N -> fits p (nprod D) ->
  linfit_nn_pack_real k tol D y D es (p :: D) x =
  linfit_nn_real k tol (AV D y) (AV D es) [seq AV D (take (nprod D) (drop (i * nprod D) x)) | i <- iota 0 p].
Proof. exact: nn_pack_eq. Qed.
Print Assumptions C74_linfit_nn_pack.
(* Finding: success is never set: it is false for every fit, converged or not. *)
Theorem C74_linfit_nn_success_refuted (F : Type) (zero one : F) fadd fsub fmul fdiv fabs flt feqb k tol (y ye : arg F) ts r :
  linfit_nn zero one fadd fsub fmul fdiv fabs flt feqb k tol y ye ts = Ok r -> n_success r = false.
Proof.
exact: LinfitProofs.nn_success_false.
Qed.
Print Assumptions C74_linfit_nn_success_refuted.
