(* Lemmas on matrices, part 6: when the decompositions succeed. *)
From Verif Require Import Base ImageModel ImageSpec MatModel MatProofs MatProofs4.
From mathcomp Require Import all_ssreflect all_algebra all_fingroup.
From Verif Require Import MatSpec MatProofs2 MatProofs3 MatProofs5.
Set Implicit Arguments.
Unset Strict Implicit.
Unset Printing Implicit Defensive.
Import Order.Theory GRing.Theory Num.Theory.
Local Notation ltP := ssrnat.ltP.
Local Notation leP := ssrnat.leP.
Local Open Scope ring_scope.

(* ---- LU ---- *)
Lemma real_good_order (R : realFieldType) :
  good_order (fun a : R => `|a|) (fun a b : R => a < b).
Proof.
split; first by move=> a; rewrite ltxx.
split; first by move=> a b c ab; rewrite !ltNge => /negbFE ca; apply: negbF; exact: le_trans ca (ltW ab).
by move=> a; rewrite normr0 normr_gt0 => /negbFE /eqP.
Qed.

Lemma lu_total (F : fieldType) fabs flt np n (v : img F) (A : 'M[F]_n) : is_mat v A ->
  exists u, lu_decompose_field fabs flt np v = Ok u.
Proof.
move=> /is_matP [Hr [Hc Rv]].
have [d [ipiv [bad [ns [E [M [piv [RM _]]]]]]]] := lu_decompose_inv fabs flt np Hr Hc Rv.
by eexists; exact: E.
Qed.

Lemma lu_success (R : realFieldType) n (v : img R) (A : 'M[R]_n) : is_mat v A ->
  exists u, lu_decompose_field (fun a : R => `|a|) (fun a b : R => a < b) false v = Ok u /\
    u_bad u = (A \notin unitmx).
Proof.
move=> Hv; have /is_matP [Hr [Hc Rv]] := Hv.
have [d [ipiv [bad [ns [E [M [piv [RM [_ [_ [_ [_ Hbad]]]]]]]]]]]] :=
  lu_decompose_inv (fun a : R => `|a|) (fun a b : R => a < b) false Hr Hc Rv.
eexists; split; first exact: E; cbn [u_bad].
case: bad E Hbad => E Hbad.
  have := Hbad erefl erefl (real_good_order R); rewrite mx_of_fn => d0.
  by rewrite unitmxE d0 unitr0.
by have [-> _] := lu_sound Hv E erefl.
Qed.

(* ---- Cholesky ---- *)
Section Chol.
Variable R : rcfType.
Let fadd (a b : R) := a + b.
Let fsub (a b : R) := a - b.
Let fmul (a b : R) := a * b.
Let fdiv (a b : R) := a / b.
Let fle (a b : R) := a <= b.
Let fsqrt (a : R) := Num.sqrt a.

Lemma sqr_form n (x : 'cV[R]_n) : (x^T *m x) 0 0 = \sum_i x i 0 ^+ 2.
Proof. by rewrite mxE; apply: eq_bigr => i _; rewrite !mxE -expr2. Qed.

Lemma posdef_llt n (L : 'M[R]_n) : L \in unitmx -> posdef (L *m L^T).
Proof.
move=> uL x x0; have -> : x^T *m (L *m L^T) *m x = (L^T *m x)^T *m (L^T *m x).
  by rewrite trmx_mul trmxK !mulmxA.
have : L^T *m x != 0.
  apply: contraNneq x0 => e; have : invmx L^T *m (L^T *m x) = 0 by rewrite e mulmx0.
  by rewrite mulKmx ?unitmx_tr // => ->.
set y := L^T *m x => y0; rewrite sqr_form lt_def sumr_ge0 ?andbT; last by move=> i _; exact: sqr_ge0.
apply: contraNneq y0 => e; apply/eqP/colP => i; rewrite [RHS]mxE.
have /eqP := e; rewrite psumr_eq0; last by move=> j _; exact: sqr_ge0.
by move=> /allP /(_ i (mem_index_enum i)) /=; rewrite sqrf_eq0 => /eqP.
Qed.

Lemma chol_failed_posdef n (A : 'M[R]_n) : A^T = A ->
  chol_failed 0 fadd fsub fmul fdiv fle fsqrt n (fn_of A) -> ~ posdef A.
Proof.
move=> sA [i [W [/ltP iN [[Hok _] Hle]]]] PD.
rewrite dotE /fsub /fle in Hle; set s := _ - _ in Hle.
have ok q r : (q < n)%N -> (r < n)%N -> bef i i q r -> elem_ok 0 fadd fsub fmul fdiv fle fsqrt (fn_of A) W q r.
  by move=> qn rn; apply: Hok; apply/ltP.
have up q r : (q < i)%N -> (q < r)%N -> (r < n)%N -> W q r = 0.
  move=> qi qr rn; apply: elem_up qr _; apply: ok => //; first exact: ltn_trans qi iN.
  by left; apply/ltP.
have dg q : (q < i)%N -> 0 < W q q.
  move=> qi; have qn := ltn_trans qi iN.
  by have [|//] := @elem_diag R (fn_of A) W q; apply: ok => //; left; apply/ltP.
pose L : 'M[R]_n := \matrix_(q, k) (if (q < i)%N || ((q == i :> nat) && (k < i)%N) then W q k else (q == k)%:R).
pose ii := Ordinal iN.
have tL : is_trig_mx L.
  apply/is_trig_mxP => q r qr; rewrite mxE -val_eqE /= (ltn_eqF qr).
  case: ifP => // /orP[qi|/andP[/eqP qi ri]]; first exact: up.
  by move: qr; rewrite qi ltnNge (ltnW ri).
have dL q : L q q != 0.
  rewrite mxE eqxx; case: ifP => [/orP[qi|/andP[/eqP qi]]|_]; last exact: oner_neq0.
    by rewrite gt_eqF // dg.
  by rewrite qi ltnn.
have uL : L^T \in unitmx by rewrite unitmx_tr; exact: trig_unit tL dL.
have [x Lx] : exists x : 'cV[R]_n, L^T *m x = delta_mx ii 0.
  by exists (invmx L^T *m delta_mx ii 0); rewrite mulKVmx.
have x0 : x != 0.
  apply/negP => /eqP x0; move: Lx; rewrite x0 mulmx0 => /colP /(_ ii).
  by rewrite !mxE !eqxx => /esym /eqP; rewrite oner_eq0.
have Lhi (q r : 'I_n) : (i < r)%N -> L q r = (q == r)%:R.
  move=> ir; rewrite mxE; case: ifP => // /orP[qi|/andP[_ ri]].
    by rewrite up // ?(ltn_trans qi) // -val_eqE /= ltn_eqF // (ltn_trans qi).
  by move: ri; rewrite ltnNge (ltnW ir).
have xhi (r : 'I_n) : (i < r)%N -> x r 0 = 0.
  move=> ir; have /colP/(_ r) := Lx; rewrite !mxE -val_eqE /= (gtn_eqF ir) /=.
  rewrite (bigD1 r) //= mxE Lhi // eqxx mul1r big1 ?addr0 // => q qr.
  by rewrite mxE Lhi // (negbTE qr) mul0r.
pose E : 'M[R]_n := \matrix_(k, k') (if k == k' then (if (k < i)%N then 1 else if k == ii then s else 0) else 0).
have AB (q r : 'I_n) : (q <= i)%N -> (r <= q)%N -> A q r = (L *m E *m L^T) q r.
  move=> qi rq.
  have Li (k : 'I_n) : (k <= i)%N -> L k ii = (k == ii)%:R.
    move=> ki; rewrite mxE /= ltnn andbF orbF; case: ifP => // kl.
    by rewrite up // -val_eqE /= ltn_eqF.
  have Ll (k j : 'I_n) : (k <= i)%N -> (j < i)%N -> L k j = W k j.
    by move=> ki ji; rewrite mxE ji andbT orbC -leq_eqVlt ki.
  have LE (k : 'I_n) : (L *m E) q k = L q k * E k k.
    rewrite mxE (bigD1 k) //= big1 ?addr0 // => k' ne.
    by rewrite [E k' k]mxE (negbTE ne) mulr0.
  have ri := leq_trans rq qi.
  have -> : (L *m E *m L^T) q r = \sum_(0 <= k < i) W q k * W r k + (q == ii)%:R * (r == ii)%:R * s.
    rewrite mxE (bigID (fun k : 'I_n => (k < i)%N)) /=; congr (_ + _).
      rewrite (big_nat_widen _ _ n) ?(ltnW iN) // big_mkord; apply: eq_bigr => k ki.
      by rewrite LE [L^T k r]mxE [E k k]mxE eqxx ki mulr1 !Ll.
    rewrite (bigD1 ii) /= ?ltnn // big1 ?addr0; last first.
      move=> k /andP[ki ne]; rewrite LE [E k k]mxE eqxx (negbTE ki) (negbTE ne) mulr0 mul0r //.
    by rewrite LE [L^T _ _]mxE [E ii ii]mxE !eqxx ltnn !Li // mulrAC.
  have low (q' r' : 'I_n) : (q' <= i)%N -> (r' < i)%N -> (r' <= q')%N -> \sum_(0 <= k < i) W q' k * W r' k = A q' r'.
    move=> qi' ri' rq'.
    rewrite (@big_cat_nat _ _ _ r'.+1) //= [X in _ + X]big_nat [X in _ + X]big1 ?addr0; last first.
      by move=> k /andP[k1 k2]; rewrite (@up r' k) // ?mulr0 // (ltn_trans k2).
    rewrite -fn_ofE; move: rq'; rewrite leq_eqVlt => /orP[/eqP e|rq'].
      have e' : r' = q' by apply: val_inj.
      rewrite e' in ri' *; apply: (elem_diag (W := W) (A := fn_of A) _).2; apply: ok => //; left; exact/ltP.
    apply: elem_low rq' _ _; first by rewrite gt_eqF // dg.
    apply: ok => //; move: qi'; rewrite leq_eqVlt => /orP[/eqP e|qi']; last by left; apply/ltP.
    by right; split=> //; apply/ltP.
  case: (r =P ii) => [e|/eqP ne]; last first.
    have ri' : (r < i)%N by rewrite ltn_neqAle (leq_trans rq) // andbT.
    by rewrite mulr0 mul0r addr0 low.
  have e' : q = ii by apply: val_inj; apply/eqP; rewrite eqn_leq qi /= -[i]/(val ii) -e.
  rewrite e e' eqxx !mul1r /s addrC subrK.
  by rewrite -fn_ofE.
have sB : (L *m E *m L^T)^T = L *m E *m L^T.
  rewrite !trmx_mul trmxK mulmxA; congr (_ *m _ *m _); apply/matrixP => k k'; rewrite !mxE eq_sym.
  by case: eqP => // ->.
have AB' (q r : 'I_n) : (q <= i)%N -> (r <= i)%N -> A q r = (L *m E *m L^T) q r.
  move=> qi ri; case: (leqP r q) => rq; first exact: AB.
  have sym (B : 'M[R]_n) : B^T = B -> B q r = B r q by move=> eB; rewrite -[in LHS]eB mxE.
  by rewrite (sym _ sA) (sym _ sB) AB // ltnW.
have : (x^T *m A *m x) 0 0 = s.
  have -> : x^T *m A *m x = x^T *m (L *m E *m L^T) *m x.
    apply/matrixP => a b; rewrite !mxE; apply: eq_bigr => r _.
    case: (leqP r i) => ri; last by rewrite !ord1 xhi // !mulr0.
    congr (_ * _); rewrite !mxE; apply: eq_bigr => q _.
    case: (leqP q i) => qi; last by rewrite !mxE !ord1 xhi // !mul0r.
    by rewrite AB'.
  have -> : x^T *m (L *m E *m L^T) *m x = (L^T *m x)^T *m E *m (L^T *m x) by rewrite trmx_mul trmxK !mulmxA.
  rewrite Lx trmx_delta -rowE mxE (bigD1 ii) //= big1 ?addr0.
    by rewrite !mxE !eqxx ltnn mulr1.
  by move=> k ne; rewrite !mxE (negbTE ne) mulr0.
by move=> e; have := PD x x0; rewrite e ltNge Hle.
Qed.

Lemma chol_success n (v : img R) (A : 'M[R]_n) : is_mat v A ->
  exists r, chol_decompose_real v = Ok r /\
    match r with
    | Some l => exists L : 'M[R]_n, is_mat l L /\ is_trig_mx L /\ (forall i, 0 < L i i) /\
        (forall i j : 'I_n, (j <= i)%N -> (L *m L^T) i j = A i j)
    | None => A^T = A -> ~ posdef A
    end.
Proof.
move=> /is_matP [Hr [Hc Rv]].
case: (@chol_decompose_ok R 0 1 fadd fsub fmul fdiv fle fsqrt n v (fn_of A) Hr Hc Rv) => [[d [W [E [RW H]]]]|[E H]].
  exists (Some (Img n n d)); split; first exact: E.
  exists (mx_of n n W); split; first exact: rep_is_mat.
  have [T [D P]] := @chol_sound_mx R n (fn_of A) W (fun i j iN jN => H i j (ltP iN) (ltP jN)).
  by split=> //; split=> // i j ji; rewrite P // fn_ofE.
exists None; split; first exact: E.
by move=> sA; apply: chol_failed_posdef sA H.
Qed.
End Chol.
