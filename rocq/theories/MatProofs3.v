(* Lemmas on matrices, part 3: the LU decomposition of the library. *)
From Verif Require Import Base ImageModel ImageSpec MatModel MatProofs.
From mathcomp Require Import all_ssreflect all_algebra all_fingroup.
From Verif Require Import MatSpec MatProofs2.
Set Implicit Arguments.
Unset Strict Implicit.
Unset Printing Implicit Defensive.
Import GRing.Theory Num.Theory.
Local Open Scope ring_scope.

(* the function that a matrix is, outside its bounds as well *)
Definition fn_of (R : ringType) (n m : nat) (A : 'M[R]_(n, m)) (i j : nat) : R :=
  match insub i, insub j with Some i, Some j => A i j | _, _ => 0 end.
Definition vfn_of (R : ringType) (n : nat) (x : 'cV[R]_n) (i : nat) : R :=
  match insub i with Some i => x i 0 | _ => 0 end.
Lemma fn_ofE (R : ringType) (n m : nat) (A : 'M[R]_(n, m)) (i : 'I_n) (j : 'I_m) : fn_of A i j = A i j.
Proof. by rewrite /fn_of !valK. Qed.
Lemma vfn_ofE (R : ringType) (n : nat) (x : 'cV[R]_n) (i : 'I_n) : vfn_of x i = x i 0.
Proof. by rewrite /vfn_of !valK. Qed.

Lemma is_matP (R : ringType) n m (v : img R) (A : 'M[R]_(n, m)) :
  is_mat v A <-> nr v = n /\ nc v = m /\ rep n m (pix v) (fn_of A).
Proof.
split=> [[Hr [Hc [L H]]]|[Hr [Hc [L H]]]].
  split=> //; split=> //; split=> // i j /ltP iN /ltP jN.
  by rewrite (H (Ordinal iN) (Ordinal jN)) -fn_ofE.
split=> //; split=> //; split=> // i j.
by rewrite H ?fn_ofE //; apply/ltP.
Qed.
Lemma is_vecP (R : ringType) n (l : list R) (x : 'cV[R]_n) : is_vec l x <-> repv n l (vfn_of x).
Proof.
split=> [[L H]|[L H]]; split=> //.
  by move=> i /ltP iN; rewrite (H (Ordinal iN)) -vfn_ofE.
by move=> i; rewrite H ?vfn_ofE //; apply/ltP.
Qed.
Lemma rep_is_mat (F : fieldType) n m (v : img F) M : nr v = n -> nc v = m -> rep n m (pix v) M ->
  is_mat v (mx_of n m M).
Proof.
move=> Hr Hc [L H]; split=> //; split=> //; split=> // i j.
by rewrite H ?mxE //; apply/ltP.
Qed.
Lemma repv_is_vec (F : fieldType) n (l : list F) V : repv n l V -> is_vec l (cv_of n V).
Proof. by move=> [L H]; split=> // i; rewrite H ?mxE //; apply/ltP. Qed.
Lemma mx_of_fn (F : fieldType) n m (A : 'M[F]_(n, m)) : mx_of n m (fn_of A) = A.
Proof. by apply/matrixP=> i j; rewrite mxE fn_ofE. Qed.
Lemma cv_of_fn (F : fieldType) n (x : 'cV[F]_n) : cv_of n (vfn_of x) = x.
Proof. by apply/colP=> i; rewrite mxE vfn_ofE. Qed.

Lemma perm_fn_ext (p q : nat -> nat) k i : (forall l, (l < k)%N -> p l = q l) -> perm_fn p k i = perm_fn q k i.
Proof.
elim: k i => [//|k IH] i H /=; rewrite (H k) // IH // => l lk; apply: H; exact: ltnW.
Qed.

Section LU.
Variable F : fieldType.
Variables (fabs : F -> F) (flt : F -> F -> bool).
Let fsub (a b : F) := a - b.
Let fmul (a b : F) := a * b.
Let fdiv (a b : F) := a / b.
Let fopp (a : F) := - a.
Let feqb (a b : F) := a == b.

(* the comparisons of absolute values find a non-zero element *)
Definition good_order : Prop :=
  (forall a, flt a a = false) /\
  (forall a b c, flt a b = true -> flt a c = false -> flt b c = false) /\
  (forall a, flt (fabs 0) (fabs a) = false -> a = 0).

Definition pivf (piv : nat -> nat) (k p : nat) : nat -> nat := fun l => if l == k then p else piv l.

Lemma lu_decompose_inv np n (v : img F) (A : nat -> nat -> F) : nr v = n -> nc v = n -> rep n n (pix v) A ->
  exists d ipiv bad ns, lu_decompose_field fabs flt np v = Ok (Lu (Img n n d) ipiv bad ns) /\
  exists M piv, rep n n d M /\ pivots n ipiv piv /\ (np = true -> forall k, (k < n)%N -> piv k = k) /\
    ns = (\sum_(0 <= l < n) (piv l != l))%N /\
    (bad = false -> luinv n n A M (perm_fn piv n) /\ forall l, (l < n)%N -> M l l != 0) /\
    (bad = true -> np = false -> good_order -> \det (mx_of n n A) = 0).
Proof.
move=> Hr Hc R; rewrite /lu_decompose_field /lu_decompose Hr Hc Nat.eqb_refl.
cbn [check obind].
pose I (k : nat) (s : list F * list nat * bool * nat) : Prop := let '(d, ipiv, bad, ns) := s in
  exists M piv, rep n n d M /\ length ipiv = n /\
    (forall l, (l < n)%N -> nth_error ipiv l = Some (piv l)) /\
    (forall l, (l < k)%N -> (l <= piv l < n)%N) /\ (forall l, (k <= l)%N -> (l < n)%N -> piv l = l) /\
    (np = true -> forall l, (l < n)%N -> piv l = l) /\
    ns = (\sum_(0 <= l < k) (piv l != l))%N /\
    (bad = false -> luinv n k A M (perm_fn piv k) /\ forall l, (l < k)%N -> M l l != 0) /\
    (bad = true -> np = false -> good_order -> \det (mx_of n n A) = 0).
have [|k [[[d ipiv] bad] ns] [_ /ltP kn]|[[[d ipiv] bad] ns] [-> ]] :=
  @ofold_seq_inv _ I (lu_step 0 fsub fmul fdiv fabs flt (fun a b : F => a == b) np n) n 0%N
    (pix v, List.seq 0 n, false, 0%N).
- exists A, id; split=> //; split; first by rewrite List.seq_length.
  split; first by move=> l ln; rewrite nth_error_seq ltbE ln.
  split=> //; split=> //; split=> //; split; first by rewrite big_geq.
  split=> // _; split=> // i j iN jN /=; by rewrite big_geq // add0r.
- move=> [M [piv [RM [Lp [Hp [Hlo [Hhi [Hnp [Hns [Hgood Hbad]]]]]]]]]].
  have kn' : (k < n)%coq_nat by apply/ltP.
  have Hk : nth_error ipiv k = Some k by rewrite Hp // Hhi.
  have [d' [p [E [Bp [Pnp [R' Hmax]]]]]] :=
    @lu_step_ok F 0 fsub fmul fdiv fabs flt feqb np n d ipiv bad ns M k RM kn' Hk.
  eexists; split; first exact: E.
  have /andP[kp pn] : (k <= p < n)%N by case: Bp => /leP -> /ltP ->.
  exists (next_matrix fsub fmul fdiv p k M), (pivf piv k p).
  have Pk : pivf piv k p k = p by rewrite /pivf eqxx.
  have Pl l : (l < k)%N -> pivf piv k p l = piv l by rewrite /pivf => /ltn_eqF ->.
  have Ph l : (k < l)%N -> pivf piv k p l = piv l by rewrite /pivf => /gtn_eqF ->.
  split=> //; split; first by rewrite upd_length.
  split.
    move=> l ln; rewrite nth_error_upd eqbE Lp ltbE kn andbT /pivf.
    by case: eqP => // _; apply: Hp.
  rewrite !plusE !addn1; split.
    move=> l; rewrite ltnS leq_eqVlt => /orP[/eqP ->|lk]; first by rewrite Pk kp.
    by rewrite Pl // Hlo.
  split; first by move=> l kl ln; rewrite Ph // Hhi // ltnW.
  split.
    move=> e l ln; rewrite /pivf; case: eqP => [->|_]; [exact: Pnp | exact: Hnp].
  split.
    rewrite big_nat_recr //= Pk Hns eqbE; congr (_ + _)%N; last by case: eqP.
    by apply: eq_big_nat => l /andP[_ lk]; rewrite Pl.
  split.
    rewrite /feqb; case: (M p k =P 0) => // /eqP nz bf; have {Hgood}[Hinv Hd] := Hgood bf; split.
      have H1 := luinv_step Hinv kp pn nz.
      move=> i j iN jN; rewrite -(H1 i j iN jN) /=; congr (A _ j).
      by rewrite Pk; apply: perm_fn_ext.
    move=> l; rewrite ltnS => lk; rewrite next_matrix_diag //; case: (l =P k) => [//|/eqP ne].
    by apply: Hd; rewrite ltn_neqAle ne.
  rewrite /feqb; case: (M p k =P 0) => [z _ npf [G1 [G2 G3]]|_]; last exact: Hbad.
  case: bad Hgood Hbad {E} => Hgood Hbad; first exact: Hbad.
  have {Hgood}[//|Hinv Hd] := Hgood _.
  have [t [Ht _]] : exists t : 'S_n, (forall i : 'I_n, perm_fn piv k i = t i) /\
      odd_perm t = odd (\sum_(0 <= l < k) (piv l != l)).
    apply: perm_fnP (ltnW kn) => l ln; case: (ltnP l k) => lk; first exact: Hlo.
    by rewrite Hhi // leqnn ln.
  apply: (luinv_singular Hinv kn Ht) => i /andP[ki iN]; apply: G3.
  rewrite -z; apply: Hmax => //; split; [exact/leP | exact/ltP].
- move=> [M [piv [RM [Lp [Hp [Hlo [Hhi [Hnp [Hns [Hgood Hbad]]]]]]]]]].
  exists d, ipiv, bad, ns; split=> //; exists M, piv; split=> //; split.
    split=> // k /ltP kn; split; first exact: Hp.
    by have /andP[/leP ? /ltP ?] := Hlo k kn.
  by split=> //; split.
Qed.

(* ---- what success means ---- *)
Lemma lu_sound np n (v : img F) (A : 'M[F]_n) u : is_mat v A ->
  lu_decompose_field fabs flt np v = Ok u -> u_bad u = false ->
  A \in unitmx /\ lu_determinant_field u = Ok (\det A) /\
  (forall b (bm : 'cV[F]_n), is_vec b bm ->
     exists x, lu_solve_field np u b = Ok x /\ is_vec x (invmx A *m bm)) /\
  (fits n n -> exists w, lu_invert_field np u = Ok w /\
     is_mat w (if np then invmx A *m const_mx 1 else invmx A)).
Proof.
move=> /is_matP [Hr [Hc R]].
have [d [ipiv [bad [ns [-> [M [piv [RM [Hp [Hnp [Hns [Hgood _]]]]]]]]]]]] := lu_decompose_inv np Hr Hc R.
case=> <- /= bf; have {Hgood}[Hinv Hd] := Hgood bf.
have [t [Ht Pt]] : exists t : 'S_n, (forall i : 'I_n, perm_fn piv n i = t i) /\
    odd_perm t = odd (\sum_(0 <= l < n) (piv l != l)).
  apply: perm_fnP => // l ln; have [_ Hq] := Hp; have [_ [Q1 Q2]] := Hq l (ltP ln).
  by apply/andP; split; [apply/leP | apply/ltP].
have LU : row_perm t A = Lm n M *m Um n M by rewrite -(luinv_mx Hinv Ht) mx_of_fn.
have D : \det A = (-1) ^+ t * \prod_(i < n) M i i by rewrite -(luinv_det Hinv Ht) mx_of_fn.
have uA : A \in unitmx.
  rewrite unitmxE D unitrM unitrX ?unitrN ?unitr1 //= unitfE.
  by apply/prodf_neq0 => i _; apply: Hd.
have sol (X Y Z : nat -> F) : fwd_solved fsub fmul fdiv n M (fun k => X (perm_fn piv n k)) Y ->
    back_solved fsub fmul n M Y Z -> cv_of n Z = invmx A *m cv_of n X.
  move=> H1 H2; apply: (canRL (mulKmx uA)).
  have : row_perm t A *m cv_of n Z = row_perm t (cv_of n X).
    rewrite LU -mulmxA (back_mx H2) (fwd_mx Hd H1).
    by apply/colP => i; rewrite !mxE Ht.
  rewrite row_permE -mulmxA [in RHS]row_permE => /(congr1 (mulmx (invmx (perm_mx t)))).
  by rewrite !mulKmx ?unitmx_perm.
split=> //; split.
  rewrite /lu_determinant_field (@lu_determinant_ok F 1 fsub fmul fdiv fopp n _ M) //; cbn [u_ns]; rewrite D.
  congr Ok.
  have G (l : seq nat) (a : F) : fold_left (fun a i => a * M i i) l a = a * \prod_(i <- l) M i i.
    elim: l a => [|i l IH] a /=; first by rewrite big_nil mulr1.
    by rewrite IH big_cons mulrA.
  rewrite G iota_seq -{1}(subn0 n) -/(index_iota 0 n) big_mkord; congr (_ * _).
  rewrite Pt -Hns eqbE; have -> : Nat.modulo ns 2 = (ns %% 2)%N.
    by rewrite {1}(divn_eq ns 2) addnC -plusE -multE Nat.mod_add // Nat.mod_small //; apply/ltP; rewrite ltn_mod.
  by rewrite modn2; case: (odd ns); rewrite /= ?expr1 ?expr0.
split.
  move=> b bm /is_vecP Hb.
  have [r [Y [Z [E [RZ [H1 H2]]]]]] :=
    @lu_solve_ok F 0 1 fsub fmul fdiv np n (Lu (Img n n d) ipiv bad ns) M ipiv piv b _
      RM erefl erefl erefl Hp (fun e k kn => Hnp e k (introT ltP kn)) Hb.
  exists r; split; first exact: E.
  have := repv_is_vec RZ; by rewrite (sol _ _ _ H1 H2) cv_of_fn.
move=> Hf.
have [inv [V [E [RV HV]]]] := @lu_invert_ok F 0 1 fsub fmul fdiv np n (Lu (Img n n d) ipiv bad ns) M ipiv piv
  Hf RM erefl erefl erefl Hp.
exists (Img n n inv); split; first exact: E.
have := @rep_is_mat F n n (Img n n inv) V erefl erefl RV.
suff -> : mx_of n n V = (if np then invmx A *m const_mx 1 else invmx A) by [].
apply/matrixP => i j; have [Y [H1 H2]] := HV j (ltP (ltn_ord j)).
pose X k : F := if np then 1 else if Nat.eqb k j then 1 else 0.
have {}H1 : fwd_solved fsub fmul fdiv n M (fun k => X (perm_fn piv n k)) Y.
  move=> k kn; rewrite H1 // /unit_rhs /X; by case: (np).
have /colP/(_ i) := sol _ _ _ H1 H2; rewrite mxE => E'; rewrite mxE E'.
have -> : invmx A *m cv_of n X = col j (if np then invmx A *m const_mx 1 else invmx A).
  rewrite /X; case: (np).
    by apply/colP => l; rewrite !mxE; apply: eq_bigr => q _; rewrite !mxE.
  rewrite colE; congr (_ *m _); apply/colP => l; rewrite !mxE eqbE eqxx andbT -val_eqE /=.
  by case: eqP.
by rewrite mxE.
Qed.
End LU.
