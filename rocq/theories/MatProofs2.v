(* Lemmas on matrices, part 2: the algebra of the LU decomposition over a field. *)
From Verif Require Import Base MatModel MatProofs.
From mathcomp Require Import all_ssreflect all_algebra all_fingroup.
Set Implicit Arguments.
Unset Strict Implicit.
Unset Printing Implicit Defensive.
Import GRing.Theory.
Local Open Scope ring_scope.

Lemma eqbE (x y : nat) : Nat.eqb x y = (x == y).
Proof. by apply/idP/idP => [/Nat.eqb_eq -> //|/eqP ->]; apply: Nat.eqb_refl. Qed.
Lemma lebE (x y : nat) : Nat.leb x y = (x <= y)%N.
Proof. by apply/idP/idP => [/Nat.leb_le /leP //|/leP H]; apply/Nat.leb_le. Qed.
Lemma ltbE (x y : nat) : Nat.ltb x y = (x < y)%N.
Proof. exact: lebE. Qed.

Section LU.
Variable F : fieldType.
Implicit Types (A M : nat -> nat -> F) (s : nat -> nat).
Let fsub (a b : F) := a - b.
Let fmul (a b : F) := a * b.
Let fdiv (a b : F) := a / b.

Definition Lf M (l i : nat) : F := if (l <= i)%N then M i l else 0.
Definition Uf M (l j : nat) : F := if (l < j)%N then M l j else (l == j)%:R.

Definition luinv (n k : nat) A M s : Prop := forall i j, (i < n)%N -> (j < n)%N ->
  A (s i) j = \sum_(0 <= l < k) Lf M l i * Uf M l j + (if (k <= i)%N && (k <= j)%N then M i j else 0).

Lemma luinv_swap n k p A M s : luinv n k A M s -> (k <= p)%N -> (p < n)%N ->
  luinv n k A (if Nat.eqb p k then M else swapM p k M) (fun i => s (swap1 k p i)).
Proof.
move=> H kp pn i j iN jN.
have kn : (k < n)%N by apply: leq_ltn_trans pn.
have tn : (swap1 k p i < n)%N by rewrite /swap1 !eqbE; case: eqP => // _; case: eqP.
have tk : (k <= swap1 k p i)%N = (k <= i)%N.
  rewrite /swap1 !eqbE; case: eqP => [->|_]; first by rewrite kp leqnn.
  by case: eqP => [->|//]; rewrite kp leqnn.
have tl l : (l < k)%N -> (l <= swap1 k p i)%N = (l <= i)%N.
  move=> lk; rewrite /swap1 !eqbE; case: eqP => [->|_]; first by rewrite (ltnW lk) (leq_trans (ltnW lk) kp).
  by case: eqP => [->|//]; rewrite (ltnW lk) (leq_trans (ltnW lk) kp).
have Me i' j' : (if Nat.eqb p k then M else swapM p k M) i' j' = M (swap1 k p i') j'.
  rewrite eqbE; case: eqP => [->|pk]; rewrite /swap1 /swapM !eqbE.
    by case: eqP => [->|].
  case: (i' =P p) => [->|ip]; last by case: (i' =P k).
  by case: (p =P k).
rewrite H // tk; congr (_ + _).
  apply: eq_big_nat => l /andP[_ lk].
  rewrite /Lf /Uf tl // !Me; congr (_ * _).
  have -> : swap1 k p l = l; last by [].
  rewrite /swap1 !eqbE; case: eqP => [e|_]; first by move: lk; rewrite e ltnn.
  by case: eqP => [e|//]; move: lk; rewrite e ltnNge kp.
by rewrite Me.
Qed.

Lemma luinv_elim n k A M s : luinv n k A M s -> (k < n)%N -> M k k != 0 ->
  luinv n k.+1 A (restM fsub fmul k (scaleM fdiv k M)) s.
Proof.
move=> H kn nz i j iN jN; rewrite H // big_nat_recr //= -addrA; congr (_ + _).
  apply: eq_big_nat => l /andP[_ lk].
  rewrite /Lf /Uf /restM /scaleM !eqbE !ltbE; congr (_ * _).
    by case: ifP => // li; rewrite (leq_gtF (ltnW lk)) !andbF.
  by rewrite (leq_gtF (ltnW lk)) (ltn_eqF lk).
rewrite /Lf /Uf /restM /scaleM !eqbE !ltbE /fsub /fmul /fdiv !ltnn !andbF /=.
case: (ltngtP k i) => ki; case: (ltngtP k j) => kj //=; rewrite ?mul0r ?mulr0 ?mulr1 ?add0r ?addr0 //.
- by rewrite eqxx /= addrC subrK.
- by rewrite kj.
- by rewrite -ki eqxx /= mulrCA divff // mulr1.
- by rewrite kj.
Qed.

Lemma luinv_step n k p A M s : luinv n k A M s -> (k <= p)%N -> (p < n)%N -> M p k != 0 ->
  luinv n k.+1 A (next_matrix fsub fmul fdiv p k M) (fun i => s (swap1 k p i)).
Proof.
move=> H kp pn nz; apply: luinv_elim; first exact: luinv_swap.
  exact: leq_ltn_trans pn.
rewrite eqbE; case: (p =P k) => [e|pk]; first by rewrite -{1}e.
by rewrite /swapM !eqbE eqxx; case: (k =P p) => // e; case: pk.
Qed.

Lemma next_matrix_diag p k M l : (k <= p)%N -> (l <= k)%N ->
  next_matrix fsub fmul fdiv p k M l l = if l == k then M p k else M l l.
Proof.
move=> kp lk; rewrite /next_matrix /restM /scaleM !eqbE !ltbE (leq_gtF lk) /= andbF.
case: (p =P k) => [->|pk]; first by case: eqP => [->|].
rewrite /swapM !eqbE; case: (l =P k) => [->|lk']; first by case: eqP => // e; case: pk.
case: eqP => // e; exfalso; apply: lk'; apply/eqP; by rewrite eqn_leq lk e kp.
Qed.

(* the exchanges form a permutation, odd when the number of true exchanges is *)
Lemma perm_fnP n (piv : nat -> nat) : (forall k, (k < n)%N -> (k <= piv k < n)%N) ->
  forall k, (k <= n)%N -> exists t : 'S_n, (forall i : 'I_n, perm_fn piv k i = t i) /\
    odd_perm t = odd (\sum_(0 <= l < k) (piv l != l)).
Proof.
move=> H; elim=> [|k IH] kn.
  by exists 1%g; split=> [i|]; rewrite ?perm1 // odd_perm1 big_geq.
have [t [Ht Pt]] := IH (ltnW kn).
have /andP[kp pn] := H k kn.
exists (tperm (Ordinal kn) (Ordinal pn) * t)%g; split=> [i|].
  rewrite /= permM; have -> : swap1 k (piv k) i = tperm (Ordinal kn) (Ordinal pn) i; last exact: Ht.
  rewrite /swap1 !eqbE; case: tpermP => [->|->|/eqP n1 /eqP n2] /=.
  - by rewrite eqxx.
  - by rewrite eqxx; case: eqP.
  - by rewrite -!val_eqE /= in n1 n2; rewrite (negbTE n1) (negbTE n2).
rewrite odd_permM odd_tperm Pt big_nat_recr //= oddD addbC -val_eqE /= eq_sym.
by case: (piv k != k).
Qed.

(* ---- matrices ---- *)
Definition mx_of (n m : nat) M : 'M[F]_(n, m) := \matrix_(i, j) M i j.
Definition cv_of (n : nat) (V : nat -> F) : 'cV[F]_n := \col_i V i.

Definition Lm n M : 'M[F]_n := \matrix_(i, l) Lf M l i.
Definition Um n M : 'M[F]_n := \matrix_(l, j) Uf M l j.

Lemma luinv_mx n A M s (t : 'S_n) : luinv n n A M s -> (forall i : 'I_n, s i = t i) ->
  row_perm t (mx_of n n A) = Lm n M *m Um n M.
Proof.
move=> H Ht; apply/matrixP=> i j; rewrite !mxE -Ht H // (leqNgt n i) ltn_ord addr0 big_mkord.
by apply: eq_bigr => l _; rewrite !mxE.
Qed.

Lemma det_Lm n M : \det (Lm n M) = \prod_(i < n) M i i.
Proof.
rewrite det_trig; first by apply: eq_bigr => i _; rewrite mxE /Lf leqnn.
by apply/is_trig_mxP => i j ij; rewrite mxE /Lf leqNgt ij.
Qed.
Lemma det_Um n M : \det (Um n M) = 1.
Proof.
rewrite -det_tr det_trig; first by apply: big1 => i _; rewrite !mxE /Uf ltnn eqxx.
by apply/is_trig_mxP => i j ij; rewrite !mxE /Uf ltnNge (ltnW ij) /= gtn_eqF.
Qed.

Lemma luinv_det n A M s (t : 'S_n) : luinv n n A M s -> (forall i : 'I_n, s i = t i) ->
  \det (mx_of n n A) = (-1) ^+ t * \prod_(i < n) M i i.
Proof.
move=> H Ht; have := congr1 determinant (luinv_mx H Ht).
rewrite row_permE !det_mulmx det_perm det_Lm det_Um mulr1 => <-.
by rewrite mulrA -signr_addb addbb mul1r.
Qed.

Lemma subsE (f : nat -> F) a b x : subs fsub x f (seq.iota a b) = x - \sum_(a <= i < a + b) f i.
Proof.
elim: b a x => [|b IH] a x; first by rewrite addn0 big_geq // subr0.
rewrite /subs /= -/(subs _ _ _ _) IH [in RHS]big_ltn ?addnS ?ltnS ?leq_addr //.
by rewrite opprD addrA addSn.
Qed.
Lemma iota_seq a b : List.seq a b = seq.iota a b.
Proof. by elim: b a => //= b IH a; rewrite IH. Qed.

Lemma fwd_mx n M X Y : (forall i, (i < n)%N -> M i i != 0) -> fwd_solved fsub fmul fdiv n M X Y ->
  Lm n M *m cv_of n Y = cv_of n X.
Proof.
move=> nz H; apply/colP=> i; rewrite !mxE.
have := H i (ltP (ltn_ord i)); rewrite /row_solved iota_seq subsE /fdiv add0n => /esym E.
have {}E : Y i * M i i + \sum_(0 <= l < i) Y l * M i l = X i by rewrite -E divfK ?subrK // nz.
rewrite -E addrC.
rewrite (bigID (fun l : 'I_n => (l < i)%N)) /=; congr (_ + _).
  rewrite (big_nat_widen _ _ n) ?(ltnW (ltn_ord i)) // big_mkord.
  by apply: eq_bigr => l li; rewrite !mxE /Lf (ltnW li) mulrC.
rewrite (bigD1 i) /= ?ltnn // !mxE /Lf leqnn mulrC big1 ?addr0 // => l /andP[li ne].
have il : (i < l)%N by rewrite ltn_neqAle leqNgt li andbT eq_sym.
by rewrite !mxE /Lf leqNgt il mul0r.
Qed.

Lemma back_mx n M Y Z : back_solved fsub fmul n M Y Z -> Um n M *m cv_of n Z = cv_of n Y.
Proof.
move=> H; apply/colP=> i; rewrite !mxE.
have := H i (ltP (ltn_ord i)); rewrite iota_seq plusE minusE addn1 subsE subnKC // => /esym E.
have {}E : Z i + \sum_(i.+1 <= l < n) Z l * M i l = Y i by rewrite -E subrK.
rewrite -E addrC.
rewrite (bigID (fun l : 'I_n => (i < l)%N)) /=; congr (_ + _).
  rewrite big_geq_mkord; apply: eq_bigr => l li; by rewrite !mxE /Uf li mulrC.
rewrite (bigD1 i) /= ?ltnn // !mxE /Uf ltnn eqxx mul1r big1 ?addr0 // => l /andP[li ne].
by rewrite !mxE /Uf (negbTE li) eq_sym (negbTE ne : (l == i :> nat) = false) mul0r.
Qed.

(* a zero column below the diagonal makes the matrix singular *)
Lemma luinv_singular n k A M s (t : 'S_n) : luinv n k A M s -> (k < n)%N ->
  (forall i : 'I_n, s i = t i) -> (forall i, (k <= i < n)%N -> M i k = 0) ->
  \det (mx_of n n A) = 0.
Proof.
move=> H kn Ht Z0.
pose U : 'M[F]_n := \matrix_(l, j) (if (l < k)%N then Uf M l j else (l == j)%:R).
have dU : \det U = 1.
  rewrite -det_tr det_trig; first by apply: big1 => i _; rewrite !mxE /Uf ltnn !eqxx; case: ifP.
  apply/is_trig_mxP => i j ij; have ji : (j < i)%N = false by rewrite ltnNge (ltnW ij).
  by rewrite !mxE /Uf -val_eqE /= ji gtn_eqF //; case: ifP.
pose kk := Ordinal kn.
have Uu : U \in unitmx by rewrite unitmxE dU unitr1.
have [z Uz] : exists z : 'cV[F]_n, U *m z = delta_mx kk 0.
  by exists (invmx U *m delta_mx kk 0); rewrite mulKVmx.
have z0 : z != 0.
  apply/negP => /eqP z0; move: Uz; rewrite z0 mulmx0 => /colP /(_ kk).
  by rewrite !mxE !eqxx => /esym /eqP; rewrite oner_eq0.
have zhi (l : 'I_n) : (k <= l)%N -> z l 0 = (l == kk)%:R.
  move=> kl; move/colP: Uz => /(_ l); rewrite !mxE eqxx andbT => <-.
  rewrite (bigD1 l) //= !mxE ltnNge kl /= eqxx mul1r big1 ?addr0 // => j jl.
  by rewrite mxE ltnNge kl /= eq_sym (negbTE jl) mul0r.
have zlo (l : 'I_n) : (l < k)%N -> \sum_(j < n) Uf M l j * z j 0 = 0.
  move=> lk; move/colP: Uz => /(_ l); rewrite !mxE -val_eqE /= (ltn_eqF lk) /= => E.
  rewrite -[RHS]E.
  by apply: eq_bigr => j _; rewrite mxE lk.
have Az : mx_of n n A *m z = 0.
  suff : row_perm t (mx_of n n A) *m z = 0.
    rewrite row_permE -mulmxA => /(congr1 (mulmx (invmx (perm_mx t)))).
    by rewrite mulKmx ?unitmx_perm // mulmx0.
  apply/colP => i; rewrite !mxE.
  under eq_bigr do rewrite !mxE -Ht H // mulrDl.
  rewrite big_split /=.
  have -> : \sum_(j < n) (if (k <= i)%N && (k <= j)%N then M i j else 0) * z j 0 = 0.
    apply: big1 => j _; case: ifP => [/andP[ki kj]|]; rewrite ?mul0r //.
    rewrite zhi //; case: (j =P kk) => [->|]; last by rewrite mulr0.
    by rewrite Z0 ?ki ?ltn_ord // mul0r.
  rewrite addr0.
  under eq_bigr do rewrite big_mkord mulr_suml.
  rewrite exchange_big big1 //= => l _.
  have ln : (l < n)%N by exact: (ltn_trans (ltn_ord l) kn).
  under eq_bigr do rewrite -mulrA.
  by rewrite -mulr_sumr (zlo (Ordinal ln) (ltn_ord l)) mulr0.
by apply/eqP; rewrite -det_tr; apply/det0P; exists z^T; rewrite -?trmx_mul ?Az ?trmx0 // -trmx0 (inj_eq trmx_inj).
Qed.
End LU.
