(* Theorems on matrices: LU (C43), Cholesky (C44), products and transformations (C61). *)
From Coq Require Import QArith Qreduction.
From Verif Require Import Base ImageModel ImageSpec MatModel MatProofs7.
From mathcomp Require Import all_ssreflect all_algebra all_fingroup.
From Verif Require Import MatSpec MatProofs3 MatProofs5 MatProofs6 MatProofs8.
Set Implicit Arguments.
Unset Strict Implicit.
Unset Printing Implicit Defensive.
Import Order.Theory GRing.Theory Num.Theory.
Local Open Scope ring_scope.

(* ---- C43: LU ---- *)
(* Whatever the absolute value and the comparison used to choose the pivots, and with or without
   pivoting: when decompose returns true, the matrix has an inverse, determinant() is its
   determinant and solve(b) solves the system. *)
Theorem C43_lu_solve (F : fieldType) (fabs : F -> F) (flt : F -> F -> bool) (no_pivot : bool) n
    (v : img F) (A : 'M[F]_n) u :
  is_mat v A -> lu_decompose_field fabs flt no_pivot v = Ok u -> u_bad u = false ->
  A \in unitmx /\
  lu_determinant_field u = Ok (\det A) /\
  forall b (bm : 'cV[F]_n), is_vec b bm ->
    exists x, lu_solve_field no_pivot u b = Ok x /\ exists xm, is_vec x xm /\ A *m xm = bm /\
      forall ym, A *m ym = bm -> ym = xm.
Proof.
move=> Hv E B; have [uA [D [S _]]] := lu_sound Hv E B; split=> //; split=> // b bm Hb.
have [x [Ex Hx]] := S b bm Hb; exists x; split=> //; exists (invmx A *m bm); split=> //.
by split; [rewrite mulKVmx | move=> ym <-; rewrite mulKmx].
Qed.
Print Assumptions C43_lu_solve.

Theorem C43_lu_invert (F : fieldType) (fabs : F -> F) (flt : F -> F -> bool) n (v : img F) (A : 'M[F]_n) u :
  fits n n -> is_mat v A -> lu_decompose_field fabs flt false v = Ok u -> u_bad u = false ->
  exists w, lu_invert_field false u = Ok w /\ exists W, is_mat w W /\ A *m W = 1%:M /\ W *m A = 1%:M.
Proof.
move=> Hf Hv E B; have [uA [_ [_ I]]] := lu_sound Hv E B; have [w [Ew Hw]] := I Hf.
exists w; split=> //; exists (invmx A); split=> //.
by rewrite mulmxV ?mulVmx.
Qed.
Print Assumptions C43_lu_invert.

(* without pivoting every column of the result of invert() solves A x = (1,...,1): for a matrix
   of at least two rows this is never the inverse *)
Theorem C43_lu_invert_no_pivot_refuted (F : fieldType) (fabs : F -> F) (flt : F -> F -> bool) n
    (v : img F) (A : 'M[F]_n) u :
  (2 <= n)%N -> fits n n -> is_mat v A -> lu_decompose_field fabs flt true v = Ok u -> u_bad u = false ->
  exists w, lu_invert_field true u = Ok w /\ exists W, is_mat w W /\ A *m W = const_mx 1 /\ A *m W <> 1%:M.
Proof.
move=> n2 Hf Hv E B; have [uA [_ [_ I]]] := lu_sound Hv E B; have [w [Ew Hw]] := I Hf.
exists w; split=> //; exists (invmx A *m const_mx 1); split=> //; rewrite mulKVmx //; split=> //.
case: n n2 {v A Hf Hv E B I uA Hw} => [//|[//|n]] _ /matrixP /(_ ord0 ord_max).
by rewrite !mxE /= => /eqP; rewrite oner_eq0.
Qed.
Print Assumptions C43_lu_invert_no_pivot_refuted.

(* decompose never reads or writes outside the matrix; with pivoting in an ordered field it returns
   true exactly for the matrices that have an inverse *)
Theorem C43_lu_success (R : realFieldType) n (v : img R) (A : 'M[R]_n) : is_mat v A ->
  exists u, lu_decompose_field (fun a : R => `|a|) (fun a b : R => a < b) false v = Ok u /\
    u_bad u = ~~ (A \in unitmx).
Proof. exact: lu_success. Qed.
Print Assumptions C43_lu_success.

Theorem C43_lu_total (F : fieldType) (fabs : F -> F) (flt : F -> F -> bool) no_pivot n (v : img F) (A : 'M[F]_n) :
  is_mat v A -> exists u, lu_decompose_field fabs flt no_pivot v = Ok u.
Proof. exact: lu_total. Qed.
Print Assumptions C43_lu_total.

(* determinant(), invert() and solve() *)
Theorem C43_determinant (R : realFieldType) n (v : img R) (A : 'M[R]_n) : is_mat v A ->
  determinant_field (fun a : R => `|a|) (fun a b : R => a < b) v = Ok (\det A).
Proof. exact: determinant_mx. Qed.
Print Assumptions C43_determinant.

Theorem C43_invert (R : realFieldType) n (v : img R) (A : 'M[R]_n) : fits n n -> is_mat v A ->
  if A \in unitmx
  then exists w, invert_field (fun a : R => `|a|) (fun a b : R => a < b) v = Ok (Some w) /\ is_mat w (invmx A)
  else invert_field (fun a : R => `|a|) (fun a b : R => a < b) v = Ok None.
Proof. exact: invert_mx. Qed.
Print Assumptions C43_invert.

Theorem C43_solve (R : realFieldType) n (v : img R) (A : 'M[R]_n) b (bm : 'cV[R]_n) :
  is_mat v A -> is_vec b bm ->
  if A \in unitmx
  then exists x, solve_field (fun a : R => `|a|) (fun a b : R => a < b) v b = Ok (Some x) /\
         is_vec x (invmx A *m bm)
  else solve_field (fun a : R => `|a|) (fun a b : R => a < b) v b = Ok None.
Proof. exact: solve_mx. Qed.
Print Assumptions C43_solve.

(* wrong dimensions are reported *)
Theorem C43_dims (F : fieldType) (fabs : F -> F) (flt : F -> F -> bool) (v : img F) no_pivot : nr v <> nc v ->
  lu_decompose_field fabs flt no_pivot v = CheckFail /\ determinant_field fabs flt v = CheckFail /\
  invert_field fabs flt v = CheckFail /\ forall b, solve_field fabs flt v b = CheckFail.
Proof.
move=> H; have E := eqb_neq_false H.
rewrite /lu_decompose_field /determinant_field /invert_field /solve_field
  /mat_determinant /mat_invert /mat_solve /lu_decompose.
by rewrite E.
Qed.
Print Assumptions C43_dims.
Theorem C43_solve_dims (F : fieldType) (fabs : F -> F) (flt : F -> F -> bool) no_pivot no_pivot' (v : img F) u b :
  lu_decompose_field fabs flt no_pivot v = Ok u -> length b <> nr v ->
  lu_solve_field no_pivot' u b = CheckFail.
Proof. exact: lu_solve_size. Qed.
Print Assumptions C43_solve_dims.

(* ---- C44: Cholesky (the implementation used without LAPACK) ---- *)
Theorem C44_decompose (R : rcfType) n (v : img R) (A : 'M[R]_n) : is_mat v A -> A^T = A ->
  exists r, chol_decompose_real v = Ok r /\
    match r with
    | Some l => posdef A /\
        exists L : 'M[R]_n, is_mat l L /\ is_trig_mx L /\ (forall i, 0 < L i i) /\ L *m L^T = A
    | None => ~ posdef A
    end.
Proof. exact: chol_mx. Qed.
Print Assumptions C44_decompose.

(* the elements above the diagonal of the argument are never looked at *)
Theorem C44_decompose_lower (R : rcfType) n (v l : img R) (A : 'M[R]_n) : is_mat v A ->
  chol_decompose_real v = Ok (Some l) ->
  exists L : 'M[R]_n, is_mat l L /\ is_trig_mx L /\ (forall i, 0 < L i i) /\
    forall i j : 'I_n, (j <= i)%N -> (L *m L^T) i j = A i j.
Proof. by move=> Hv E; have [r [E' H]] := chol_success Hv; move: H; rewrite E in E'; case: E' => <-. Qed.
Print Assumptions C44_decompose_lower.

Theorem C44_use (R : rcfType) n (v l : img R) (A : 'M[R]_n) : is_mat v A -> A^T = A ->
  chol_decompose_real v = Ok (Some l) ->
  A \in unitmx /\
  (forall b (bm : 'cV[R]_n), is_vec b bm -> exists x, chol_solve_real l b = Ok x /\ is_vec x (invmx A *m bm)) /\
  (fits n n -> exists w, chol_invert_real l = Ok w /\ is_mat w (invmx A)) /\
  (exists d, lower_determinant_real l = Ok d /\ d * d = \det A /\ 0 < d).
Proof. exact: chol_use. Qed.
Print Assumptions C44_use.

Theorem C44_lower (R : rcfType) n (v l : img R) (A : 'M[R]_n) : fits n n -> is_mat v A -> A^T = A ->
  chol_decompose_real v = Ok (Some l) ->
  exists L : 'M[R]_n, is_mat l L /\ is_trig_mx L /\ L *m L^T = A /\ L \in unitmx /\
    (exists w, lower_inverse_real l = Ok w /\ is_mat w (invmx L)) /\
    (forall b (bm : 'cV[R]_n), is_vec b bm ->
       (exists x, substitute_forward_real l b = Ok x /\ is_vec x (invmx L *m bm)) /\
       (exists x, substitute_backward_real l b = Ok x /\ is_vec x (invmx L^T *m bm))).
Proof. exact: chol_lower. Qed.
Print Assumptions C44_lower.

Theorem C44_dims (R : rcfType) (v : img R) : nr v <> nc v -> chol_decompose_real v = CheckFail.
Proof. by move=> H; rewrite /chol_decompose_real /chol_decompose eqb_neq_false. Qed.
Print Assumptions C44_dims.
Theorem C44_solve_dims (R : rcfType) (l : img R) b : length b <> nr l ->
  chol_solve_real l b = CheckFail /\ substitute_forward_real l b = CheckFail /\
  substitute_backward_real l b = CheckFail.
Proof.
move=> H; have E : (nr l =? length b)%nat = false by apply: eqb_neq_false => e; apply: H.
by rewrite /chol_solve_real /substitute_forward_real /substitute_backward_real
  /chol_solve /substitute_forward /substitute_backward E.
Qed.
Print Assumptions C44_solve_dims.

(* inplace_symmetrize copies the elements below the diagonal *)
Theorem C44_symmetrize (R : ringType) n (v : img R) (A : 'M[R]_n) : is_mat v A ->
  exists w, inplace_symmetrize v = Ok w /\
    exists B : 'M[R]_n, is_mat w B /\ B^T = B /\ forall i j : 'I_n, (j <= i)%N -> B i j = A i j.
Proof.
move=> Hv; have [w [E H]] := symmetrize_mx Hv; exists w; split=> //; eexists; split; first exact: H.
split; last by move=> i j ij; rewrite mxE ltnNge ij.
apply/matrixP => i j; rewrite !mxE; case: (ltngtP i j) => // e.
by have -> : i = j by exact: val_inj.
Qed.
Print Assumptions C44_symmetrize.

(* ---- C61: products, diagonals, transformations of the plane ---- *)
Theorem C61_mat_mat (R : ringType) n m p (a b : img R) (A : 'M[R]_(n, m)) (B : 'M[R]_(m, p)) : fits n p ->
  is_mat a A -> is_mat b B -> exists c, mat_mul_ring a b = Ok c /\ is_mat c (A *m B).
Proof. exact: mat_mul_mx. Qed.
Print Assumptions C61_mat_mat.
Theorem C61_mat_vec (R : ringType) n m (a : img R) (b : list R) (A : 'M[R]_(n, m)) (B : 'cV[R]_m) :
  is_mat a A -> is_vec b B -> exists c, mat_vec_ring a b = Ok c /\ is_vec c (A *m B).
Proof. exact: mat_vec_mx. Qed.
Print Assumptions C61_mat_vec.
Theorem C61_vec_mat (R : ringType) n m (a : list R) (b : img R) (A : 'rV[R]_n) (B : 'M[R]_(n, m)) :
  is_rvec a A -> is_mat b B -> exists c, vec_mat_ring a b = Ok c /\ is_rvec c (A *m B).
Proof. exact: vec_mat_mx. Qed.
Print Assumptions C61_vec_mat.
Theorem C61_dims (R : ringType) (a b : img R) (x : list R) :
  (nc a <> nr b -> mat_mul_ring a b = CheckFail) /\
  (nc a <> length x -> mat_vec_ring a x = CheckFail) /\
  (length x <> nr b -> vec_mat_ring x b = CheckFail).
Proof.
rewrite /mat_mul_ring /mat_vec_ring /vec_mat_ring /mat_mul /mat_vec /vec_mat.
by split; [|split] => H; rewrite eqb_neq_false.
Qed.
Print Assumptions C61_dims.

Theorem C61_diagonal (R : ringType) n (v : img R) (A : 'M[R]_n) : is_mat v A ->
  (exists d, diagonal 0 v = Ok d /\ is_vec d (\col_i A i i)) /\
  forall x, exists w, fill_diagonal v x = Ok w /\ is_mat w (\matrix_(i, j) if i == j then x else A i j).
Proof. by move=> Hv; split; [exact: diagonal_mx | move=> x; exact: fill_diagonal_mx]. Qed.
Print Assumptions C61_diagonal.
Theorem C61_diagonal_dims (R : ringType) (v : img R) x : nr v <> nc v ->
  diagonal 0 v = CheckFail /\ fill_diagonal v x = CheckFail /\ inplace_symmetrize v = CheckFail.
Proof. by move=> H; rewrite /diagonal /fill_diagonal /inplace_symmetrize eqb_neq_false. Qed.
Print Assumptions C61_diagonal_dims.
Theorem C61_as_diagonal (R : ringType) n (l : list R) (x : 'cV[R]_n) : fits n n -> is_vec l x ->
  exists w, as_diagonal 0 l = Ok w /\ is_mat w (diag_mx x^T).
Proof. exact: as_diagonal_mx. Qed.
Print Assumptions C61_as_diagonal.
Theorem C61_identity (R : ringType) n : fits n n ->
  exists w, make_identity 0 1 n = Ok w /\ is_mat w (1%:M : 'M[R]_n).
Proof. exact: make_identity_mx. Qed.
Print Assumptions C61_identity.

(* the point (x,y) is the vector (x,y,1) *)
Theorem C61_transformations (R : comRingType) (x y : R) :
  (forall sx sy, exists m, make_scale 0 1 sx sy = Ok m /\ mat_vec_ring m [:: x; y; 1] = Ok [:: sx * x; sy * y; 1]) /\
  (forall tx ty, exists m, make_translation 0 1 tx ty = Ok m /\
     mat_vec_ring m [:: x; y; 1] = Ok [:: x + tx; y + ty; 1]) /\
  (forall ca sa, exists m, make_rotation 0 1 (fun a => - a) ca sa = Ok m /\
     mat_vec_ring m [:: x; y; 1] = Ok [:: ca * x - sa * y; sa * x + ca * y; 1]).
Proof.
split; last split.
- move=> a b; rewrite (make_scale_eq 0 1 id); eexists; split; [reflexivity|by rewrite apply33 !(mul0r, mulr1, addr0, add0r)].
- move=> a b; rewrite (make_translation_eq 0 1 id); eexists; split; [reflexivity|by rewrite apply33 !(mul0r, mul1r, mulr1, addr0, add0r)].
- move=> a b; rewrite make_rotation_eq; eexists; split; [reflexivity|by rewrite apply33 !(mul0r, mul1r, mulNr, mulr1, addr0, add0r)].
Qed.
Print Assumptions C61_transformations.

(* ---- examples, with rational numbers ---- *)
Definition q_add a b := Qred (Qplus a b).
Definition q_sub a b := Qred (Qminus a b).
Definition q_mul a b := Qred (Qmult a b).
Definition q_div a b := Qred (Qdiv a b).
Definition q_opp a := Qred (Qopp a).
Definition q_abs a := if Qle_bool 0 a then a else q_opp a.
Definition q_lt a b := negb (Qle_bool b a).
(* the roots of the numbers that appear below *)
Definition q_sqrt (a : Q) : Q := if Qeq_bool a (4 # 1) then 2 # 1 else if Qeq_bool a (9 # 1) then 3 # 1 else a.
Definition q_lu := lu_decompose (0 # 1) q_sub q_mul q_div q_abs q_lt Qeq_bool.
Definition q_invert np := lu_invert (0 # 1) (1 # 1) q_sub q_mul q_div np.
Definition q_chol := chol_decompose (0 # 1) q_add q_sub q_mul q_div Qle_bool q_sqrt.

Example C43_example_pivot :
  let v := Img 2 2 [:: 0 # 1; 2 # 1; 3 # 1; 4 # 1]%Q in
  mat_solve (0 # 1) q_sub q_mul q_div q_abs q_lt Qeq_bool v [:: 2 # 1; 7 # 1]%Q = Ok (Some [:: 1 # 1; 1 # 1]%Q) /\
  mat_determinant (0 # 1) (1 # 1) q_opp q_sub q_mul q_div q_abs q_lt Qeq_bool v = Ok (- 6 # 1)%Q /\
  mat_invert (0 # 1) (1 # 1) q_sub q_mul q_div q_abs q_lt Qeq_bool v =
    Ok (Some (Img 2 2 [:: (- 2) # 3; 1 # 3; 1 # 2; 0 # 1]%Q)).
Proof. by vm_compute. Qed.
(* three rows with two exchanges: the order of the permutations matters *)
Example C43_example_3 :
  let v := Img 3 3 [:: 0 # 1; 0 # 1; 1 # 1; 2 # 1; 0 # 1; 0 # 1; 0 # 1; 4 # 1; 0 # 1]%Q in
  mat_determinant (0 # 1) (1 # 1) q_opp q_sub q_mul q_div q_abs q_lt Qeq_bool v = Ok (8 # 1)%Q /\
  mat_solve (0 # 1) q_sub q_mul q_div q_abs q_lt Qeq_bool v [:: 5 # 1; 2 # 1; 8 # 1]%Q =
    Ok (Some [:: 1 # 1; 2 # 1; 5 # 1]%Q).
Proof. by vm_compute. Qed.
Example C43_example_singular :
  mat_solve (0 # 1) q_sub q_mul q_div q_abs q_lt Qeq_bool (Img 2 2 [:: 1 # 1; 2 # 1; 2 # 1; 4 # 1]%Q)
    [:: 1 # 1; 1 # 1]%Q = Ok None.
Proof. by vm_compute. Qed.
(* the inverse of the identity without pivoting *)
Example C43_example_no_pivot :
  Base.obind (q_lu true (Img 2 2 [:: 1 # 1; 0 # 1; 0 # 1; 1 # 1]%Q)) (q_invert true) =
    Ok (Img 2 2 [:: 1 # 1; 1 # 1; 1 # 1; 1 # 1]%Q).
Proof. by vm_compute. Qed.
Example C44_example :
  let v := Img 2 2 [:: 4 # 1; 2 # 1; 2 # 1; 10 # 1]%Q in
  q_chol v = Ok (Some (Img 2 2 [:: 2 # 1; 0 # 1; 1 # 1; 3 # 1]%Q)) /\
  chol_solve q_sub q_mul q_div (Img 2 2 [:: 2 # 1; 0 # 1; 1 # 1; 3 # 1]%Q) [:: 6 # 1; 12 # 1]%Q =
    Ok [:: 1 # 1; 1 # 1]%Q /\
  lower_inverse (0 # 1) (1 # 1) q_sub q_mul q_div (Img 2 2 [:: 2 # 1; 0 # 1; 1 # 1; 3 # 1]%Q) =
    Ok (Img 2 2 [:: 1 # 2; 0 # 1; (- 1) # 6; 1 # 3]%Q).
Proof. by vm_compute. Qed.
Example C44_example_not_positive : q_chol (Img 2 2 [:: 4 # 1; 6 # 1; 6 # 1; 9 # 1]%Q) = Ok None.
Proof. by vm_compute. Qed.
Example C61_example :
  mat_mul (0 # 1) q_add q_mul (Img 1 2 [:: 1 # 1; 2 # 1]%Q) (Img 2 2 [:: 1 # 1; 0 # 1; 3 # 1; 1 # 1]%Q) =
    Ok (Img 1 2 [:: 7 # 1; 2 # 1]%Q).
Proof. by vm_compute. Qed.
