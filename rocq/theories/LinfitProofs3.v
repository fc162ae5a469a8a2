(* Lemmas on linear fits, part 3: the cache and linfit(). *)
From Verif Require Import Base ImageModel ImageSpec ImageProofs MatModel MatProofs MatProofs4 LinfitModel LinfitProofs.
From mathcomp Require Import all_ssreflect all_algebra all_fingroup.
From Verif Require Import MatSpec MatProofs2 MatProofs3 MatProofs5 MatProofs6 MatProofs8 LinfitSpec LinfitProofs2.
Set Implicit Arguments.
Unset Strict Implicit.
Unset Printing Implicit Defensive.
Import Order.Theory GRing.Theory Num.Theory.
Local Notation ltP := ssrnat.ltP.
Local Notation leP := ssrnat.leP.
Local Open Scope ring_scope.

Section Cache.
Variable R : rcfType.
Local Notation fadd := (fun a b : R => a + b).
Local Notation fsub := (fun a b : R => a - b).
Local Notation fmul := (fun a b : R => a * b).
Local Notation fdiv := (fun a b : R => a / b).
Local Notation fabs := (fun a : R => `|a|).
Local Notation flt := (fun a b : R => a < b).
Local Notation feqb := (fun a b : R => a == b).

Lemma nthE (l : list R) m : (m < length l)%N -> List.nth_error l m = Some (seq.nth 0 l m).
Proof. by elim: l m => [//|x l IH] [|m] //= ml; rewrite IH. Qed.
Lemma nth_errorE (l : list R) m x : List.nth_error l m = Some x -> seq.nth 0 l m = x.
Proof. by elim: l m => [|z l IH] [|m] //=; [case|exact: IH]. Qed.
Lemma nth_argE (l : list (arg R)) m x : List.nth_error l m = Some x -> seq.nth (AS 0) l m = x.
Proof. by elim: l m => [|z l IH] [|m] //=; [case|exact: IH]. Qed.

Lemma repeat_nseq (A : Type) (x : A) k : List.repeat x k = nseq k x.
Proof. by elim: k => //= k ->. Qed.

Lemma arg_div_ok D t ye : arg_ok D t -> arg_ok D ye ->
  exists q, arg_div fdiv t ye = Ok q /\ arg_ok D q /\
    forall m, (m < nprod D)%N -> arg_at q m = arg_at t m / arg_at ye m.
Proof.
case: t ye => [x|d l] [e|d' es] /=.
- by move=> _ _; exists (AS (x / e)).
- move=> _ [-> L]; exists (AV D (List.map (fun e => x / e) es)); split=> //=; split.
    by rewrite List.map_length.
  by move=> m mD; apply: nth_errorE; rewrite List.nth_error_map nthE ?L.
- move=> [-> L] _; exists (AV D (List.map (fun x => x / e) l)); split=> //=; split.
    by rewrite List.map_length.
  by move=> m mD; apply: nth_errorE; rewrite List.nth_error_map nthE ?L.
move=> [-> L] [-> L']; case: List.list_eq_dec => // _ /=.
have -> : omapl (fun i : nat => x <- oget l i;; e <- oget es i;; Ok (x / e)) (List.seq 0 (length l)) =
    Ok (List.map (fun i => seq.nth 0 l i / seq.nth 0 es i) (List.seq 0 (length l))).
  apply: VecProofs2.omapl_map => i /List.in_seq [_ /ltP il].
  by rewrite /oget !nthE //= ?L' -?L.
eexists; split; first reflexivity; split=> /=; first by rewrite List.map_length List.seq_length.
move=> m mD; apply: nth_errorE; rewrite List.nth_error_map nth_error_seq.
by have /PeanoNat.Nat.ltb_lt -> : (m < length l)%coq_nat by apply/ltP; rewrite L.
Qed.

(* the rows from the i-th on *)
Lemma make_cache_ok D ye p : arg_ok D ye -> forall ts i c C, nr c = p -> nc c = nprod D ->
  rep p (nprod D) (pix c) C -> (i + length ts = p)%N -> (forall t, List.In t ts -> arg_ok D t) ->
  exists c', make_cache fdiv c ye i ts = Ok c' /\ nr c' = p /\ nc c' = nprod D /\
    rep p (nprod D) (pix c') (fun a m => if (a < i)%N then C a m
                                         else arg_at (seq.nth (AS 0) ts (a - i)) m / arg_at ye m).
Proof.
move=> He; elim=> [|t ts IH] i c C Hr Hn RC Hp Hts /=.
  exists c; split=> //; split=> //; split=> //; apply: rep_ext RC _ => a m /ltP ap _.
  by rewrite -[i]addn0 Hp ap.
have [q [-> [Hq Eq]]] := arg_div_ok (Hts t (or_introl erefl)) He; rewrite /=.
have ip : (i < p)%coq_nat by apply/ltP; rewrite -Hp /= addnS ltnS leq_addr.
have [d' [E Rd']] : exists d', set_row c i q = Ok (Img p (nprod D) d') /\
    rep p (nprod D) d' (fun a m => if (a =? i)%nat then arg_at t m / arg_at ye m else C a m).
  case: q Hq Eq => [x|dq lq] /= Hq Eq.
    have [d' [E Rd']] := set_row_scalar _ _ _ _ Hr Hn RC i x ip; exists d'; split=> //.
    by apply: rep_ext Rd' _ => a m _ /ltP mD; case: ifP => // _; exact: Eq.
  have RL : repv (nprod D) lq (fun m => arg_at t m / arg_at ye m).
    split; first by case: Hq.
    by case: Hq => _ L m /ltP mD; rewrite nthE ?L // Eq.
  by have [d' [E Rd']] := set_row_vec _ _ _ _ Hr Hn RC i _ _ dq ip RL; exists d'.
rewrite E /=.
have Hp' : (i + 1 + length ts)%N = p by rewrite -Hp -addnA.
have [c' [-> [Hr' [Hn' RC']]]] := IH (i + 1)%N (Img p (nprod D) d') _ erefl erefl Rd'
  Hp' (fun t' Ht' => Hts t' (or_intror Ht')).
exists c'; split=> //; split=> //; split=> //; apply: rep_ext RC' _ => a m ap mD.
rewrite addn1 ltnS; case: ltngtP => [ai|ai|->].
- by rewrite eqbE (ltn_eqF ai).
- by rewrite subnS -[(a - i)%N]prednK ?subn_gt0.
- by rewrite eqbE eqxx subnn.
Qed.

Definition wmx p n (X : 'M[R]_(p, n)) (e : 'rV[R]_n) : 'M[R]_(p, n) := \matrix_(i, m) (X i m / e 0 m).
Definition wvec n (y e : 'rV[R]_n) : 'cV[R]_n := \col_m (y 0 m / e 0 m).

Lemma chi2_ofE p n (X : 'M[R]_(p, n)) y e a : chi2_of X y e a = nsq ((wmx X e)^T *m a - wvec y e).
Proof.
apply: eq_bigr => m _; rewrite !mxE mulrBl; congr ((_ - _) ^+ 2).
by rewrite mulr_suml; apply: eq_bigr => i _; rewrite !mxE mulrC mulrA (mulrC (X i m)) mulrAC.
Qed.
Lemma curvatureE p n (X : 'M[R]_(p, n)) e : curvature X e = wmx X e *m (wmx X e)^T.
Proof.
by apply/matrixP => i j; rewrite !mxE; apply: eq_bigr => m _; rewrite !mxE mulrACA -expr2 exprVn.
Qed.
Lemma independentE p n (X : 'M[R]_(p, n)) e : no_zero e ->
  independent X <-> (forall a : 'cV[R]_p, (wmx X e)^T *m a = 0 -> a = 0).
Proof.
move=> nz; have E (a : 'cV[R]_p) m : ((wmx X e)^T *m a) m 0 = (\sum_(i < p) a i 0 * X i m) / e 0 m.
  by rewrite mxE mulr_suml; apply: eq_bigr => i _; rewrite !mxE mulrC mulrA.
split=> H a Ha; apply: H.
  move=> m; have := E a m; rewrite Ha mxE => /esym /eqP; rewrite mulf_eq0 invr_eq0 (negPf (nz m)) orbF.
  by move/eqP.
by apply/colP => m; rewrite E Ha mul0r mxE.
Qed.

Lemma linfit_cache_ok D (yl : list R) ye (ts : list (arg R)) : let n := nprod D in let p := length ts in
  fits p n -> length yl = n -> arg_ok D ye -> (forall t, List.In t ts -> arg_ok D t) ->
  exists c, linfit_cache 0 fdiv (AV D yl) ye ts = Ok c /\ is_mat c (wmx (rows_of p n ts) (row_of n ye)).
Proof.
move=> n p Hf Ly He Hts; rewrite /linfit_cache /linfit_check /=.
have -> : same_dims (length yl) (ye :: ts) = true.
  rewrite /same_dims; apply/orP; right; apply/List.forallb_forall => t Ht.
  have : arg_ok D t by case: Ht => [<-|/Hts].
  by case: t {Ht} => //= d l [_ ->]; rewrite Ly; apply/PeanoNat.Nat.eqb_eq.
rewrite /= Ly filled_ok //=.
have [c [-> [Hr [Hn RC]]]] := @make_cache_ok D ye p He ts 0 (Img p n (List.repeat 0 (p * n))) _ erefl erefl
  (rep_repeat p n 0) erefl Hts.
exists c; split=> //; apply: (@rep_is_mat_ring _ _ _ _ _ _ Hr Hn RC) => i m.
by rewrite ltn0 subn0 !mxE.
Qed.
Lemma flat_vec D (q : arg R) n : arg_ok D q -> (forall x, q <> AS x) -> n = nprod D -> is_vec (flat q) (\col_(m < n) arg_at q m).
Proof.
case: q => [x|d l] /=; first by move=> _ /(_ x).
by move=> [_ L] _ ->; split=> // i; rewrite nthE ?L ?mxE.
Qed.

Lemma wvec_div D y ye : arg_ok D y -> arg_ok D ye -> (forall x, y <> AS x) ->
  exists q, arg_div fdiv y ye = Ok q /\ is_vec (flat q) (wvec (row_of (nprod D) y) (row_of (nprod D) ye)).
Proof.
move=> Hy He Ny; have [q [E [Hq Eq]]] := arg_div_ok Hy He; exists q; split=> //.
have Nq x : q <> AS x.
  move=> qx; move: E; rewrite qx; case: y Hy Ny {Eq} => [z|d l] /=; first by move=> _ /(_ z).
  case: ye He => [//|d' l'] _ _ _; case: check => //= _; by case: omapl.
suff -> : wvec (row_of (nprod D) y) (row_of (nprod D) ye) = \col_(m < nprod D) arg_at q m by exact: flat_vec Hq Nq _.
by apply/colP => m; rewrite !mxE Eq.
Qed.

Lemma fitted_do p n (X : 'M[R]_(p, n)) (y e : 'rV[R]_n) c ya ye q : fits p p -> no_zero e ->
  is_mat c (wmx X e) -> arg_div fdiv ya ye = Ok q -> is_vec (flat q) (wvec y e) ->
  exists r, linfit_do 0 1 fadd fsub fmul fdiv fabs flt feqb (@Num.sqrt R) ya ye c = Ok r /\ fitted X y e r.
Proof.
move=> Fp nz Hc Eq Hw; have [r [E H]] := linfit_do_mx Fp Hc Eq Hw; exists r; split=> //.
have I := independentE X nz; have U := gram_unit (wmx X e); rewrite /fitted.
move: H; case: ifP => u; last first.
  move=> [-> [-> [-> [-> _]]]]; split; last by split=> // _; rewrite /nans repeat_nseq.
  by split=> // /I /U; rewrite u.
move=> [-> [-> [Hp [He HC]]]]; split; first by split=> // _; apply/I/U.
split=> // _; set a := _ *m _ in Hp *.
exists a, (map_mx (@Num.sqrt R) (\col_i invmx (wmx X e *m (wmx X e)^T) i i)), (invmx (wmx X e *m (wmx X e)^T)).
split=> //; split; first by rewrite -map_mx_comp.
split=> //; split.
  by move=> b ba; rewrite !chi2_ofE; apply: ls_unique ba => //; rewrite /a mulKVmx.
split; first by rewrite chi2_ofE.
split; first by rewrite curvatureE mulVmx.
by move=> i; rewrite !mxE sqrtr_gt0 inv_diag_gt0 //; split=> //; rewrite sqr_sqrtr // ltW // inv_diag_gt0.
Qed.

Lemma linfit_fitted D (yl : list R) ye (ts : list (arg R)) : let n := nprod D in let p := length ts in
  fits p n -> fits p p -> length yl = n -> arg_ok D ye -> (forall t, List.In t ts -> arg_ok D t) ->
  no_zero (row_of n ye) ->
  exists r, linfit_real (AV D yl) ye ts = Ok r /\ fitted (rows_of p n ts) (row_of n (AV D yl)) (row_of n ye) r.
Proof.
move=> n p Fn Fp Ly He Hts nz; have [c [E Hc]] := linfit_cache_ok Fn Ly He Hts.
have [q [Eq Hq]] := @wvec_div D (AV D yl) ye (conj erefl Ly) He (fun x => ltac:(discriminate)).
by have [r [E' Hr]] := fitted_do Fp nz Hc Eq Hq; exists r; rewrite /linfit_real /linfit E.
Qed.
End Cache.
