(* Lemmas on linear fits, part 2: least squares. *)
From Verif Require Import Base ImageModel ImageSpec MatModel MatProofs MatProofs4 LinfitModel LinfitProofs.
From mathcomp Require Import all_ssreflect all_algebra all_fingroup.
From Verif Require Import MatSpec MatProofs2 MatProofs3 MatProofs5 MatProofs6 MatProofs8 LinfitSpec.
Set Implicit Arguments.
Unset Strict Implicit.
Unset Printing Implicit Defensive.
Import Order.Theory GRing.Theory Num.Theory.
Local Notation ltP := ssrnat.ltP.
Local Notation leP := ssrnat.leP.
Local Open Scope ring_scope.

Section LS.
Variable R : rcfType.

Definition nsq n (x : 'cV[R]_n) : R := \sum_i x i 0 ^+ 2.
Lemma nsqE n (x : 'cV[R]_n) : nsq x = (x^T *m x) 0 0.
Proof. by rewrite sqr_form. Qed.
Lemma nsq_ge0 n (x : 'cV[R]_n) : 0 <= nsq x.
Proof. by apply: sumr_ge0 => i _; exact: sqr_ge0. Qed.
Lemma nsq_eq0 n (x : 'cV[R]_n) : nsq x = 0 -> x = 0.
Proof.
move=> H; apply/colP => i; rewrite mxE.
have := @psumr_eq0P _ _ predT (fun i => x i 0 ^+ 2) (fun i _ => sqr_ge0 _) H i isT.
by move/eqP; rewrite sqrf_eq0 => /eqP.
Qed.

Lemma nsqD n (u v : 'cV[R]_n) : v^T *m u = 0 -> nsq (u + v) = nsq u + nsq v.
Proof.
move=> O; have O' : u^T *m v = 0 by rewrite -[LHS]trmxK trmx_mul trmxK O trmx0.
have T : (u + v)^T = u^T + v^T by rewrite linearD.
by rewrite !nsqE T mulmxDl !mulmxDr O O' addr0 add0r mxE.
Qed.

Variables (p n : nat) (W : 'M[R]_(p, n)) (w : 'cV[R]_n).
Let G := W *m W^T.

Lemma gram_unit : (G \in unitmx) <-> (forall a : 'cV[R]_p, W^T *m a = 0 -> a = 0).
Proof.
split=> [u a H|H].
  have : G *m a = 0 by rewrite /G -mulmxA H mulmx0.
  by move=> E; rewrite -(mulKmx u a) E mulmx0.
rewrite -row_free_unit; apply/negPn/negP => N.
have [v v0 vG] : exists2 v : 'rV[R]_p, v != 0 & v *m G = 0.
  move: N; rewrite -kermx_eq0 => /rowV0Pn [v vk v0]; exists v => //; exact/sub_kermxP.
have E : W^T *m v^T = 0.
  apply: nsq_eq0; rewrite nsqE trmx_mul !trmxK mulmxA -(mulmxA v) -/G vG mul0mx mxE //.
by move: v0; rewrite -(trmxK v) (H _ E) trmx0 eqxx.
Qed.

Lemma ls_optimal (a : 'cV[R]_p) : G *m a = W *m w -> forall b,
  nsq (W^T *m b - w) = nsq (W^T *m a - w) + nsq (W^T *m (b - a)).
Proof.
move=> Ha b.
have -> : W^T *m b - w = (W^T *m a - w) + W^T *m (b - a) by rewrite mulmxBr [RHS]addrC addrA subrK.
set u := W^T *m a - w; set v := W^T *m (b - a).
have O : v^T *m u = 0.
  by rewrite /u /v trmx_mul trmxK -mulmxA mulmxBr mulmxA -/G Ha subrr mulmx0.
exact: nsqD.
Qed.

Lemma ls_unique (a : 'cV[R]_p) : G \in unitmx -> G *m a = W *m w -> forall b, b <> a ->
  nsq (W^T *m a - w) < nsq (W^T *m b - w).
Proof.
move=> u Ha b ba; rewrite (ls_optimal Ha b) ltr_addl lt_neqAle nsq_ge0 andbT eq_sym.
apply/negP => /eqP /nsq_eq0 /((proj1 gram_unit) u) E; apply: ba.
by apply/eqP; rewrite -subr_eq0 E.
Qed.

(* the diagonal of the inverse is positive *)
Lemma inv_diag_gt0 i : G \in unitmx -> 0 < invmx G i i.
Proof.
move=> u; pose x := col i (invmx G).
have Gx : G *m x = delta_mx i 0 by rewrite /x colE mulKVmx.
have -> : invmx G i i = nsq (W^T *m x).
  rewrite nsqE trmx_mul trmxK -mulmxA [W *m _]mulmxA -/G Gx.
  rewrite !mxE (bigD1 i) //= big1 ?addr0 => [|j ji]; first by rewrite !mxE !eqxx mulr1.
  by rewrite [delta_mx _ _ _ _]mxE (negPf ji) mulr0.
rewrite lt_neqAle nsq_ge0 andbT eq_sym; apply/negP => /eqP /nsq_eq0 /((proj1 gram_unit) u) E.
have : delta_mx i 0 = 0 :> 'cV[R]_p by rewrite -Gx E mulmx0.
by move/colP/(_ i); rewrite !mxE !eqxx /= => /eqP; rewrite oner_eq0.
Qed.
Lemma gram_sym : G^T = G.
Proof. by rewrite /G trmx_mul trmxK. Qed.
End LS.

Section Do.
Variable R : rcfType.
Local Notation fadd := (fun a b : R => a + b).
Local Notation fsub := (fun a b : R => a - b).
Local Notation fmul := (fun a b : R => a * b).
Local Notation fdiv := (fun a b : R => a / b).
Local Notation fabs := (fun a : R => `|a|).
Local Notation flt := (fun a b : R => a < b).
Local Notation feqb := (fun a b : R => a == b).

Variables (p n : nat) (c : img R) (W : 'M[R]_(p, n)).
Hypotheses (Fp : fits p p) (Hc : is_mat c W).
Let G := W *m W^T.

Lemma gramfE (i j : 'I_p) : gramf 0 fadd fmul (fn_of W) n i j = G i j.
Proof.
rewrite /gramf addsE add0r add0n big_mkord mxE; apply: eq_bigr => m _.
by rewrite !mxE !fn_ofE.
Qed.
Lemma gramcE (i j : 'I_p) : gramc 0 fadd fmul n (fn_of W) i j = G i j.
Proof. by rewrite /gramc; case: ifP => _; rewrite gramfE // /G -[in LHS](gram_sym W) mxE. Qed.
Lemma betafE (w : 'cV[R]_n) (i : 'I_p) : betaf 0 fadd fmul (fn_of W) (vfn_of w) n i = (W *m w) i 0.
Proof.
rewrite /betaf addsE add0r add0n big_mkord mxE; apply: eq_bigr => m _.
by rewrite fn_ofE vfn_ofE.
Qed.

Lemma make_alpha_beta_mx ny w : is_vec ny w ->
  exists a b, make_alpha_beta 0 fadd fmul ny c = Ok (a, b) /\ is_mat a G /\ is_vec b (W *m w).
Proof.
move=> /is_vecP Hy; move/is_matP: Hc => [Hr [Hn RC]].
have [d [b [E [Rd [L Rb]]]]] := make_alpha_beta_ok 0 fadd fmul _ _ _ _ Hr Hn RC _ _ Fp Hy.
exists (Img p p d), b; split; first exact: E; split.
  by apply: is_matI Rd _ => i j; rewrite gramcE.
by split=> // i; rewrite Rb ?betafE //; apply/ltP.
Qed.

Lemma make_chi2_mx ps (a : 'cV[R]_p) ny w : is_vec ps (map_mx Some a) -> is_vec ny w ->
  make_chi2 0 fadd fsub fmul c ps ny = Ok (Some (nsq (W^T *m a - w))).
Proof.
move=> [Lp Hp] /is_vecP Hy; move/is_matP: Hc => [Hr [Hn RC]].
have Rp : repv p ps (fun i => Some (vfn_of a i)).
  by split=> // i /ltP ip; rewrite (Hp (Ordinal ip)) mxE -(vfn_ofE a (Ordinal ip)).
have [l [E Rl]] := make_model_ok 0 fadd fmul _ _ _ _ Hr Hn RC _ _ Rp.
rewrite /make_chi2 E /=.
have Rl' : repv n l (fun m => Some (adds fadd (fun i => vfn_of a i * fn_of W i m) (List.seq 0 p) 0)).
  by apply: repv_ext Rl _ => m _; rewrite modelf_some.
rewrite (total_sqr_ok 0 fadd fmul fsub _ _ _ _ _ Rl' Hy) addsE add0r add0n big_mkord; congr (Ok (Some _)).
apply: eq_bigr => m _; rewrite !mxE addsE add0r add0n big_mkord vfn_ofE expr2.
have -> : \sum_(i < p) vfn_of a i * fn_of W i m = \sum_j W^T m j * a j 0.
  by apply: eq_bigr => i _; rewrite vfn_ofE fn_ofE mxE mulrC.
by [].
Qed.

Lemma sym_mx (A : 'M[R]_p) v : is_mat v A -> A^T = A ->
  exists w, inplace_symmetrize v = Ok w /\ is_mat w A.
Proof.
move=> Hv SA; have [w [E Hw]] := symmetrize_mx Hv; exists w; split=> //.
suff <- : \matrix_(i, j) (if (i < j)%N then A j i else A i j) = A by [].
by apply/matrixP => i j; rewrite mxE; case: ifP => // _; rewrite -[in LHS]SA mxE.
Qed.
Lemma inv_sym : (invmx G)^T = invmx G.
Proof. by rewrite trmx_inv /G gram_sym. Qed.

Lemma is_vec_map (A B : Type) m (l : list A) (x : 'cV[A]_m) (f : A -> B) : is_vec l x -> is_vec (List.map f l) (map_mx f x).
Proof.
move=> [L H]; split; first by rewrite List.map_length.
by move=> i; rewrite List.nth_error_map H mxE.
Qed.

Lemma linfit_do_mx y ye q w : arg_div fdiv y ye = Ok q -> is_vec (flat q) w ->
  let a := invmx G *m (W *m w) in
  exists r, linfit_do 0 1 fadd fsub fmul fdiv fabs flt feqb (@Num.sqrt R) y ye c = Ok r /\
  if G \in unitmx
  then success r = true /\ chi2 r = Some (nsq (W^T *m a - w)) /\ is_vec (params r) (map_mx Some a) /\
       is_vec (errors r) (map_mx (fun x => Some (Num.sqrt x)) (\col_i invmx G i i)) /\ is_mat (cov r) (invmx G)
  else success r = false /\ chi2 r = None /\ params r = nans p /\ errors r = nans p /\ is_mat (cov r) G.
Proof.
move=> Eq Hw a; rewrite /linfit_do Eq /=.
have [al [be [-> [Ha Hb]]]] := make_alpha_beta_mx Hw; rewrite /=.
have I := invert_mx Fp Ha; move: I; rewrite /invert_field -/(invert _ _ _ _ _ _ _ _); case: ifP => U.
  move=> [v [-> Hv]] /=.
  have [s [-> Hs]] := sym_mx Hv inv_sym; rewrite /=.
  have [ps [E Hp]] := mat_vec_mx Hs Hb; rewrite /mat_vec_ring in E; rewrite E /=.
  have [dg [-> Hd]] := diagonal_mx Hs; rewrite /=.
  rewrite (make_chi2_mx (is_vec_map Some Hp) Hw) /=.
  eexists; split; first reflexivity; rewrite /=; split=> //; split=> //; split; first exact: is_vec_map.
  by split=> //; exact: (is_vec_map _ Hd).
move=> -> /=; have [s [-> Hs]] := sym_mx Ha (gram_sym W); rewrite /=.
have -> : nr c = p by case: Hc.
by eexists; split; first reflexivity; rewrite /=.
Qed.
End Do.
