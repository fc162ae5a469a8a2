(* Lemmas on matrices, part 8: the statements about the functions of the library. *)
From Verif Require Import Base ImageModel ImageSpec MatModel MatProofs MatProofs4 MatProofs7.
From mathcomp Require Import all_ssreflect all_algebra all_fingroup.
From Verif Require Import MatSpec MatProofs2 MatProofs3 MatProofs5 MatProofs6.
Set Implicit Arguments.
Unset Strict Implicit.
Unset Printing Implicit Defensive.
Import Order.Theory GRing.Theory Num.Theory.
Local Notation ltP := ssrnat.ltP.
Local Notation leP := ssrnat.leP.
Local Open Scope ring_scope.

Lemma eqb_neq_false n m : n <> m -> (n =? m)%nat = false.
Proof. by move=> H; apply/Nat.eqb_neq. Qed.

(* ---- LU ---- *)
Section LUs.
Variable R : realFieldType.
Let fabs (a : R) := `|a|.
Let flt (a b : R) := a < b.

Lemma determinant_mx n (v : img R) (A : 'M[R]_n) : is_mat v A -> determinant_field fabs flt v = Ok (\det A).
Proof.
move=> Hv; have [u [E B]] := lu_success Hv.
have [Hr [Hc _]] := Hv.
rewrite /determinant_field /mat_determinant Hr Hc Nat.eqb_refl /=.
rewrite -/(lu_decompose_field fabs flt false v) E /=.
case: (u_bad u) B (fun h => lu_sound Hv E h) => [/esym B _|_ H].
  by move: B; rewrite unitmxE unitfE negbK => /eqP ->.
by have [_ [D _]] := H erefl; exact: D.
Qed.

Lemma invert_mx n (v : img R) (A : 'M[R]_n) : fits n n -> is_mat v A ->
  if A \in unitmx then exists w, invert_field fabs flt v = Ok (Some w) /\ is_mat w (invmx A)
  else invert_field fabs flt v = Ok None.
Proof.
move=> Hf Hv; have [u [E B]] := lu_success Hv.
rewrite /invert_field /mat_invert -/(lu_decompose_field fabs flt false v) E /=.
case: (boolP (A \in unitmx)) B => uA /= B; last by rewrite B.
have [_ [_ [_ H]]] := lu_sound Hv E B; have [w [Ew Hw]] := H Hf.
exists w; split=> //; rewrite B; rewrite /lu_invert_field in Ew.
by rewrite Ew.
Qed.

Lemma solve_mx n (v : img R) (A : 'M[R]_n) b (bm : 'cV[R]_n) : is_mat v A -> is_vec b bm ->
  if A \in unitmx then exists x, solve_field fabs flt v b = Ok (Some x) /\ is_vec x (invmx A *m bm)
  else solve_field fabs flt v b = Ok None.
Proof.
move=> Hv Hb; have [u [E B]] := lu_success Hv.
rewrite /solve_field /mat_solve -/(lu_decompose_field fabs flt false v) E /=.
case: (boolP (A \in unitmx)) B => uA /= B; last by rewrite B.
have [_ [_ [H _]]] := lu_sound Hv E B; have [w [Ew Hw]] := H _ _ Hb.
by exists w; split=> //; rewrite B; rewrite /lu_solve_field in Ew; rewrite Ew.
Qed.
End LUs.

Lemma lu_solve_size (F : fieldType) fabs flt np np' (v : img F) u b :
  lu_decompose_field fabs flt np v = Ok u -> length b <> nr v -> lu_solve_field np' u b = CheckFail.
Proof.
rewrite /lu_decompose_field /lu_decompose /lu_solve_field /lu_solve.
case: (_ =? _)%nat => //=; case: (ofold _ _ _) => // -[[[d p] bad] ns] /= [<-] /= H.
by rewrite eqb_neq_false // => e; apply: H.
Qed.

(* ---- Cholesky ---- *)
Section Ch.
Variable R : rcfType.

Lemma chol_mx n (v : img R) (A : 'M[R]_n) : is_mat v A -> A^T = A ->
  exists r, chol_decompose_real v = Ok r /\
    match r with
    | Some l => posdef A /\ exists L : 'M[R]_n, is_mat l L /\ is_trig_mx L /\ (forall i, 0 < L i i) /\ L *m L^T = A
    | None => ~ posdef A
    end.
Proof.
move=> Hv sA; have [r [E H]] := chol_success Hv; exists r; split=> //.
case: r E H => [l|] E H; last exact: H.
have [L [Hl [T [D P]]]] := H.
have eA : L *m L^T = A.
  apply/matrixP => i j; case: (leqP j i) => ij; first exact: P.
  have -> : (L *m L^T) i j = (L *m L^T) j i 
    by have eT : (L *m L^T)^T = L *m L^T by [rewrite trmx_mul trmxK]; rewrite -[in LHS]eT mxE.
  by rewrite P ?(ltnW ij) // -[in RHS]sA mxE.
split; last by exists L.
rewrite -eA; apply: posdef_llt; apply: trig_unit => // i.
by rewrite gt_eqF.
Qed.

Lemma chol_use n (v l : img R) (A : 'M[R]_n) : is_mat v A -> A^T = A -> chol_decompose_real v = Ok (Some l) ->
  A \in unitmx /\
  (forall b (bm : 'cV[R]_n), is_vec b bm -> exists x, chol_solve_real l b = Ok x /\ is_vec x (invmx A *m bm)) /\
  (fits n n -> exists w, chol_invert_real l = Ok w /\ is_mat w (invmx A)) /\
  (exists d, lower_determinant_real l = Ok d /\ d * d = \det A /\ 0 < d).
Proof.
move=> Hv sA E; have [r [E' H]] := chol_mx Hv sA; move: H; rewrite E in E'; case: E' => <-.
move=> [_ [L [Hl [T [D eA]]]]].
have D0 i : L i i != 0 by rewrite gt_eqF.
have uL := trig_unit T D0.
split; first by rewrite -eA unitmx_mul unitmx_tr uL.
rewrite -eA; split; first by move=> b bm Hb; exact: (chol_solve_mx Hl T D0 Hb).
split; first exact: (chol_invert_mx Hl T D0).
exists (\det L); split; first exact: (lower_determinant_mx Hl T).
split; first by rewrite det_mulmx det_tr.
by rewrite det_trig //; apply: prodr_gt0 => i _; exact: D.
Qed.

Lemma chol_lower n (v l : img R) (A : 'M[R]_n) : fits n n -> is_mat v A -> A^T = A -> chol_decompose_real v = Ok (Some l) ->
  exists L : 'M[R]_n, is_mat l L /\ is_trig_mx L /\ L *m L^T = A /\ L \in unitmx /\
    (exists w, lower_inverse_real l = Ok w /\ is_mat w (invmx L)) /\
    (forall b (bm : 'cV[R]_n), is_vec b bm ->
       (exists x, substitute_forward_real l b = Ok x /\ is_vec x (invmx L *m bm)) /\
       (exists x, substitute_backward_real l b = Ok x /\ is_vec x (invmx L^T *m bm))).
Proof.
move=> Hf Hv sA E; have [r [E' H]] := chol_mx Hv sA; move: H; rewrite E in E'; case: E' => <-.
move=> [_ [L [Hl [T [D eA]]]]].
have D0 i : L i i != 0 by rewrite gt_eqF.
exists L; split=> //; split=> //; split=> //; split; first exact: trig_unit.
split; first exact: (lower_inverse_mx Hl T D0).
move=> b bm Hb; split; [exact: (subst_fwd_mx Hl T D0 Hb) | exact: (subst_bwd_mx Hl T D0 Hb)].
Qed.
End Ch.

(* ---- diagonals ---- *)
Section Diag.
Variable R : ringType.

Lemma is_matI n m (d : list R) M (A : 'M[R]_(n, m)) : rep n m d M -> (forall (i : 'I_n) (j : 'I_m), M i j = A i j) ->
  is_mat (Img n m d) A.
Proof.
move=> [L H] E; split=> //; split=> //; split=> // i j.
by rewrite H ?E //; apply/ltP.
Qed.

Lemma diagonal_mx n (v : img R) (A : 'M[R]_n) : is_mat v A ->
  exists d, diagonal 0 v = Ok d /\ is_vec d (\col_i A i i).
Proof.
move=> /is_matP [Hr [Hc Rv]]; have [d [E [L H]]] := @diagonal_ok R 0 0 id n v _ Hr Hc Rv.
by exists d; split=> //; split=> // i; rewrite H ?mxE ?fn_ofE //; apply/ltP.
Qed.
Lemma fill_diagonal_mx n (v : img R) (A : 'M[R]_n) x : is_mat v A ->
  exists w, fill_diagonal v x = Ok w /\ is_mat w (\matrix_(i, j) if i == j then x else A i j).
Proof.
move=> /is_matP [Hr [Hc Rv]]; have [d [E H]] := @fill_diagonal_ok R 0 id n v _ x Hr Hc Rv.
exists (Img n n d); split=> //; apply: is_matI H _ => i j; rewrite mxE -fn_ofE.
by rewrite -val_eqE /= eqbE.
Qed.
Lemma as_diagonal_mx n (l : list R) (x : 'cV[R]_n) : fits n n -> is_vec l x ->
  exists w, as_diagonal 0 l = Ok w /\ is_mat w (diag_mx x^T).
Proof.
move=> Hf /is_vecP Hl; have [d [E H]] := @as_diagonal_ok R 0 0 id n l _ Hf Hl.
exists (Img n n d); split=> //; apply: is_matI H _ => i j; rewrite !mxE.
by rewrite eqbE val_eqE vfn_ofE; case: (i =P j) => [->|_]; rewrite ?mulr1n ?mulr0n.
Qed.
Lemma make_identity_mx n : fits n n -> exists w, make_identity 0 1 n = Ok w /\ is_mat w (1%:M : 'M[R]_n).
Proof.
move=> Hf; have [d [E H]] := @make_identity_ok R 0 1 id n Hf.
by exists (Img n n d); split=> //; apply: is_matI H _ => i j; rewrite !mxE eqbE val_eqE; case: (i == j).
Qed.
Lemma symmetrize_mx n (v : img R) (A : 'M[R]_n) : is_mat v A ->
  exists w, inplace_symmetrize v = Ok w /\ is_mat w (\matrix_(i, j) if (i < j)%N then A j i else A i j).
Proof.
move=> /is_matP [Hr [Hc Rv]]; have [d [E H]] := @symmetrize_ok R 1 (fun a b => a) (fun a b => a) (fun a b => a) (fun a b => a)
  (fun a b => true) (fun a => a) n v _ Hr Hc Rv.
exists (Img n n d); split=> //; apply: is_matI H _ => i j; rewrite mxE -!fn_ofE.
by rewrite ltbE.
Qed.

End Diag.

Section Tr.
Variable R : comRingType.
Lemma apply33 (m00 m01 m02 m10 m11 m12 m20 m21 m22 x y z : R) :
  mat_vec_ring (Img 3 3 [:: m00; m01; m02; m10; m11; m12; m20; m21; m22]) [:: x; y; z] =
  Ok [:: m00 * x + m01 * y + m02 * z; m10 * x + m11 * y + m12 * z; m20 * x + m21 * y + m22 * z].
Proof. by rewrite /mat_vec_ring /mat_vec /= !add0r. Qed.
End Tr.
