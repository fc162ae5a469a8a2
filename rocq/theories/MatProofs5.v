(* Lemmas on matrices, part 5: products and the Cholesky decomposition, as matrices. *)
From Verif Require Import Base ImageModel ImageSpec MatModel MatProofs MatProofs4.
From mathcomp Require Import all_ssreflect all_algebra all_fingroup.
From Verif Require Import MatSpec MatProofs2 MatProofs3.
Set Implicit Arguments.
Unset Strict Implicit.
Unset Printing Implicit Defensive.
Import Order.Theory GRing.Theory Num.Theory.
Local Notation ltP := ssrnat.ltP.
Local Notation leP := ssrnat.leP.
Local Open Scope ring_scope.

Lemma addsE (R : ringType) (f : nat -> R) a b x :
  adds (fun a b : R => a + b) f (List.seq a b) x = x + \sum_(a <= i < a + b) f i.
Proof.
rewrite iota_seq; elim: b a x => [|b IH] a x; first by rewrite addn0 big_geq // addr0.
rewrite /adds /= -/(adds _ _ _ _) IH [in RHS]big_ltn ?addnS ?ltnS ?leq_addr //.
by rewrite addrA addSn.
Qed.

Section Products.
Variable R : ringType.
Lemma rep_is_mat_ring n m (v : img R) M (A : 'M[R]_(n, m)) : nr v = n -> nc v = m -> rep n m (pix v) M ->
  (forall i j, M (nat_of_ord i) (nat_of_ord j) = A i j) -> is_mat v A.
Proof.
move=> Hr Hc [L H] E; split=> //; split=> //; split=> // i j.
by rewrite H ?E //; apply/ltP.
Qed.

Lemma mat_mul_mx n m p (a b : img R) (A : 'M[R]_(n, m)) (B : 'M[R]_(m, p)) : fits n p ->
  is_mat a A -> is_mat b B -> exists c, mat_mul_ring a b = Ok c /\ is_mat c (A *m B).
Proof.
move=> Hf /is_matP [Ha1 [Ha2 RA]] /is_matP [Hb1 [Hb2 RB]].
have [d [E Rd]] := @mat_mul_ok R 0 1 (fun a b => a + b) (fun a b => a - b) (fun a b => a * b) (fun a b => a)
  (fun _ _ => true) id n m p a b _ _ Hf Ha1 Ha2 Hb1 Hb2 RA RB.
exists (Img n p d); split; first exact: E.
apply: (@rep_is_mat_ring n p (Img n p d) _ _ erefl erefl Rd) => i j.
rewrite addsE add0r add0n big_mkord mxE; apply: eq_bigr => k _; by rewrite !fn_ofE.
Qed.
Lemma mat_vec_mx n m (a : img R) (b : list R) (A : 'M[R]_(n, m)) (B : 'cV[R]_m) :
  is_mat a A -> is_vec b B -> exists c, mat_vec_ring a b = Ok c /\ is_vec c (A *m B).
Proof.
move=> /is_matP [Ha1 [Ha2 RA]] /is_vecP RB.
have [d [E [L H]]] := @mat_vec_ok R 0 1 (fun a b => a + b) (fun a b => a - b) (fun a b => a * b) (fun a b => a)
  (fun _ _ => true) id n m a b _ _ Ha1 Ha2 RA RB.
exists d; split; first exact: E.
split=> // i; rewrite H; last exact/ltP.
rewrite addsE add0r add0n big_mkord mxE; congr Some; apply: eq_bigr => k _; by rewrite fn_ofE vfn_ofE.
Qed.
Definition rfn_of n (x : 'rV[R]_n) (i : nat) : R := match insub i with Some i => x 0 i | _ => 0 end.
Lemma vec_mat_mx n m (a : list R) (b : img R) (A : 'rV[R]_n) (B : 'M[R]_(n, m)) :
  is_rvec a A -> is_mat b B -> exists c, vec_mat_ring a b = Ok c /\ is_rvec c (A *m B).
Proof.
move=> [La Ha] /is_matP [Hb1 [Hb2 RB]].
have RA : repv n a (rfn_of A).
  by split=> // i /ltP iN; rewrite (Ha (Ordinal iN)) /rfn_of insubT.
have [d [E [L H]]] := @vec_mat_ok R 0 1 (fun a b => a + b) (fun a b => a - b) (fun a b => a * b) (fun a b => a)
  (fun _ _ => true) id n m a b _ _ Hb1 Hb2 RA RB.
exists d; split; first exact: E.
split=> // i; rewrite H; last exact/ltP.
rewrite addsE add0r add0n big_mkord mxE; congr Some; apply: eq_bigr => k _; by rewrite fn_ofE /rfn_of valK.
Qed.
End Products.

Section Chol.
Variable R : rcfType.
Implicit Types (A W M : nat -> nat -> R).
Let fadd (a b : R) := a + b.
Let fsub (a b : R) := a - b.
Let fmul (a b : R) := a * b.
Let fdiv (a b : R) := a / b.
Let fle (a b : R) := a <= b.
Let fsqrt (a : R) := Num.sqrt a.
Let eok := elem_ok 0 fadd fsub fmul fdiv fle fsqrt.

Lemma dotE W i j : dot 0 fadd fmul W i j = \sum_(0 <= k < j) W i k * W j k.
Proof. by rewrite /dot addsE add0r add0n. Qed.

(* the elements that have been computed *)
Lemma elem_diag A W i : eok A W i i -> 0 < W i i /\ \sum_(0 <= k < i.+1) W i k * W i k = A i i.
Proof.
move=> [_ [_ H]]; have {H}[H1 H2] := H erefl.
rewrite dotE /fsub in H1 H2.
have s0 : 0 < A i i - \sum_(0 <= k < i) W i k * W i k by rewrite ltNge; apply: negbT.
split; first by rewrite H2 sqrtr_gt0.
rewrite big_nat_recr //= H2 -expr2 sqr_sqrtr ?ltW // addrC.
by rewrite subrK.
Qed.
Lemma elem_low A W i j : (j < i)%N -> W j j != 0 -> eok A W i j -> \sum_(0 <= k < j.+1) W i k * W j k = A i j.
Proof.
move=> ji nz [_ [H _]]; have {}H := H (ltP ji).
rewrite big_nat_recr //= H dotE /fdiv /fsub divfK // addrC; exact: subrK.
Qed.
Lemma elem_up A W i j : (i < j)%N -> eok A W i j -> W i j = 0.
Proof. by move=> ij [H _]; apply: H; apply/ltP. Qed.

Lemma sum_low n W (i j : 'I_n) : (forall k : 'I_n, (j < k)%N -> W j k = 0) ->
  (mx_of n n W *m (mx_of n n W)^T) i j = \sum_(0 <= k < j.+1) W i k * W j k.
Proof.
move=> H; rewrite mxE (big_nat_widen _ _ n) // big_mkord (bigID (fun k : 'I_n => (k < j.+1)%N)) /=.
rewrite [X in _ + X]big1 ?addr0; first by apply: eq_bigr => k _; rewrite !mxE.
by move=> k; rewrite ltnS -ltnNge => jk; rewrite !mxE H // mulr0.
Qed.

Lemma chol_sound_mx n A W : (forall i j, (i < n)%N -> (j < n)%N -> eok A W i j) ->
  is_trig_mx (mx_of n n W) /\ (forall i : 'I_n, 0 < mx_of n n W i i) /\
  (forall i j : 'I_n, (j <= i)%N -> (mx_of n n W *m (mx_of n n W)^T) i j = A i j).
Proof.
move=> H; have up (i j : 'I_n) : (i < j)%N -> W i j = 0 by move=> ij; apply: elem_up ij _; apply: H.
have dg (i : 'I_n) : 0 < W i i by have [] := elem_diag (H i i (ltn_ord i) (ltn_ord i)).
split; first by apply/is_trig_mxP => i j ij; rewrite mxE up.
split; first by move=> i; rewrite mxE.
move=> i j; rewrite leq_eqVlt => /orP[/eqP e|ji].
  have {e} -> : j = i by apply: val_inj.
  by rewrite sum_low; [have [] := elem_diag (H i i (ltn_ord i) (ltn_ord i)) | move=> k; exact: up].
rewrite sum_low; last by move=> k; exact: up.
apply: elem_low ji _ _; [by rewrite gt_eqF | exact: H].
Qed.

(* ---- triangular systems ---- *)
Lemma fwd_trig n M X Y : is_trig_mx (mx_of n n M) -> (forall i : 'I_n, mx_of n n M i i != 0) ->
  fwd_solved fsub fmul fdiv n M X Y -> mx_of n n M *m cv_of n Y = cv_of n X.
Proof.
move=> /is_trig_mxP T D H.
have <- : Lm n M = mx_of n n M.
  by apply/matrixP => i j; rewrite !mxE /Lf; case: leqP => // ij; have := T i j ij; rewrite mxE.
by apply: fwd_mx H => i iN; have := D (Ordinal iN); rewrite mxE.
Qed.
Lemma bwd_trig n M Y Z : is_trig_mx (mx_of n n M) -> (forall i : 'I_n, mx_of n n M i i != 0) ->
  bwd_solved fsub fmul fdiv n M Y Z -> (mx_of n n M)^T *m cv_of n Z = cv_of n Y.
Proof.
move=> /is_trig_mxP T D H; apply/colP => i; rewrite !mxE.
have := H i (ltP (ltn_ord i)); rewrite /col_solved iota_seq plusE minusE addn1 subsE subnKC // /fdiv => /esym E.
have nz : M i i != 0 by have := D i; rewrite mxE.
have {}E : Z i * M i i + \sum_(i.+1 <= l < n) Z l * M l i = Y i by rewrite -E divfK // subrK.
rewrite -E addrC.
rewrite (bigID (fun l : 'I_n => (i < l)%N)) /=; congr (_ + _).
  rewrite big_geq_mkord; apply: eq_bigr => l li; by rewrite !mxE mulrC.
rewrite (bigD1 i) /= ?ltnn // !mxE mulrC big1 ?addr0 // => l /andP[li ne].
have {}li : (l < i)%N by rewrite ltn_neqAle leqNgt li andbT.
by have := T l i li; rewrite !mxE => ->; rewrite mul0r.
Qed.

Lemma trig_unit n (L : 'M[R]_n) : is_trig_mx L -> (forall i, L i i != 0) -> L \in unitmx.
Proof. by move=> T D; rewrite unitmxE det_trig // unitfE; apply/prodf_neq0. Qed.

Section System.
Variables (n : nat) (l : img R) (L : 'M[R]_n).
Hypotheses (Hl : is_mat l L) (HT : is_trig_mx L) (HD : forall i, L i i != 0).
Let uL : L \in unitmx := trig_unit HT HD.

Lemma subst_fwd_mx x (X : 'cV[R]_n) : is_vec x X ->
  exists r, substitute_forward_real l x = Ok r /\ is_vec r (invmx L *m X).
Proof.
move=> /is_vecP Rx; have /is_matP[Hr [Hc RL]] := Hl.
have [r [Y [E [RY HY]]]] := @substitute_forward_ok R 1 fadd fsub fmul fdiv fle fsqrt n l _ x _ Hr Hc RL Rx.
exists r; split; first exact: E.
have := repv_is_vec RY; suff -> : cv_of n Y = invmx L *m X by [].
apply: (canRL (mulKmx uL)); rewrite -[L in L *m _]mx_of_fn (fwd_trig _ _ HY) ?mx_of_fn //; exact: cv_of_fn.
Qed.
Lemma subst_bwd_mx x (X : 'cV[R]_n) : is_vec x X ->
  exists r, substitute_backward_real l x = Ok r /\ is_vec r (invmx L^T *m X).
Proof.
move=> /is_vecP Rx; have /is_matP[Hr [Hc RL]] := Hl.
have [r [Y [E [RY HY]]]] := @substitute_backward_ok R 1 fadd fsub fmul fdiv fle fsqrt n l _ x _ Hr Hc RL Rx.
exists r; split; first exact: E.
have := repv_is_vec RY; suff -> : cv_of n Y = invmx L^T *m X by [].
apply: (canRL (mulKmx _)); first by rewrite unitmx_tr.
rewrite -[L in L^T *m _]mx_of_fn (bwd_trig _ _ HY) ?mx_of_fn //; exact: cv_of_fn.
Qed.
Lemma chol_solve_mx x (X : 'cV[R]_n) : is_vec x X ->
  exists r, chol_solve_real l x = Ok r /\ is_vec r (invmx (L *m L^T) *m X).
Proof.
move=> Hx; have [r1 [E1 H1]] := subst_fwd_mx Hx; have [r2 [E2 H2]] := subst_bwd_mx H1.
exists r2; split.
  have [Lx _] := Hx; have [Hr _] := Hl.
  rewrite /chol_solve_real /chol_solve Hr Lx Nat.eqb_refl; cbn [check obind].
  rewrite -[substitute_forward _ _ _ _ _]/(substitute_forward_real l x) E1; exact: E2.
move: H2; rewrite mulmxA; congr (is_vec _ (_ *m _)).
have uT : L^T \in unitmx by rewrite unitmx_tr.
have uLT : L *m L^T \in unitmx by rewrite unitmx_mul uL.
by rewrite -[RHS]mul1mx; apply: (canRL (mulmxK uLT)); rewrite !mulmxA mulmxKV // mulVmx.
Qed.

Lemma unit_vecE (c : 'I_n) : cv_of n (unit_vec 0 1 c) = delta_mx c 0 :> 'cV[R]_n.
Proof. by apply/colP => i; rewrite !mxE /unit_vec eqbE eqxx andbT -val_eqE /=; case: eqP. Qed.

Lemma chol_invert_mx : fits n n ->
  exists w, chol_invert_real l = Ok w /\ is_mat w (invmx (L *m L^T)).
Proof.
move=> Hf; have /is_matP[Hr [Hc RL]] := Hl.
have [inv [V [E [RV HV]]]] := @chol_invert_ok R 0 1 fadd fsub fmul fdiv fle fsqrt n l _ Hf Hr Hc RL.
exists (Img n n inv); split; first exact: E.
have := @rep_is_mat R n n (Img n n inv) V erefl erefl RV.
have uT : L^T \in unitmx by rewrite unitmx_tr.
have uLT : L *m L^T \in unitmx by rewrite unitmx_mul uL.
suff -> : mx_of n n V = invmx (L *m L^T) by [].
apply: trmx_inj; rewrite trmx_inv trmx_mul trmxK.
apply/matrixP => i c; have [Y [H1 H2]] := HV c (ltP (ltn_ord c)).
have {}H1 : L *m cv_of n Y = delta_mx c 0.
  by rewrite -unit_vecE -[L]mx_of_fn; apply: fwd_trig H1; rewrite mx_of_fn.
have {}H2 : L^T *m cv_of n (fun j => V c j) = cv_of n Y.
  by rewrite -[L]mx_of_fn; apply: bwd_trig H2; rewrite mx_of_fn.
have H3 : cv_of n (fun j => V c j) = invmx (L *m L^T) *m delta_mx c 0.
  by apply: (canRL (mulKmx uLT)); rewrite -mulmxA H2.
by have /colP/(_ i) := H3; rewrite -colE !mxE.
Qed.

Lemma lower_inverse_mx : fits n n -> exists w, lower_inverse_real l = Ok w /\ is_mat w (invmx L).
Proof.
move=> Hf; have /is_matP[Hr [Hc RL]] := Hl.
have [inv [V [E [RV HV]]]] := @lower_inverse_ok R 0 1 fadd fsub fmul fdiv fle fsqrt n l _ Hf Hr Hc RL.
exists (Img n n inv); split; first exact: E.
have := @rep_is_mat R n n (Img n n inv) V erefl erefl RV.
have uT : L^T \in unitmx by rewrite unitmx_tr.
suff -> : mx_of n n V = invmx L by [].
apply: trmx_inj; rewrite trmx_inv.
apply/matrixP => i c; have H2 := HV c (ltP (ltn_ord c)).
have {}H2 : L^T *m cv_of n (fun j => V c j) = delta_mx c 0.
  by rewrite -unit_vecE -[L]mx_of_fn; apply: bwd_trig H2; rewrite mx_of_fn.
have H3 : cv_of n (fun j => V c j) = invmx L^T *m delta_mx c 0 by apply: (canRL (mulKmx uT)).
by have /colP/(_ i) := H3; rewrite -colE !mxE.
Qed.

Lemma lower_determinant_mx : lower_determinant_real l = Ok (\det L).
Proof.
have /is_matP[Hr [Hc RL]] := Hl.
rewrite /lower_determinant_real (@lower_determinant_ok R 1 fadd fsub fmul fdiv fle fsqrt n l _ RL Hr Hc) det_trig //.
have G (s : seq nat) (f : nat -> R) a : fold_left (fun a i => a * f i) s a = a * \prod_(i <- s) f i.
  elim: s a => [|i s IH] a /=; first by rewrite big_nil mulr1.
  by rewrite IH big_cons mulrA.
rewrite (G _ (fun i => fn_of L i i)) mul1r iota_seq -{1}(subn0 n) -/(index_iota 0 n) big_mkord; congr Ok.
by apply: eq_bigr => i _; rewrite fn_ofE.
Qed.
End System.
End Chol.
