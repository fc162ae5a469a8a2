(* Lemmas on linear fits, part 6: the non-negative fit. *)
From Verif Require Import Base ImageModel ImageSpec ImageProofs MatModel MatProofs MatProofs4 LinfitModel LinfitProofs.
From mathcomp Require Import all_ssreflect all_algebra all_fingroup.
From Verif Require Import MatSpec MatProofs2 MatProofs3 MatProofs5 MatProofs6 MatProofs8 LinfitSpec LinfitProofs2 LinfitProofs3
  LinfitProofs4.
Set Implicit Arguments.
Unset Strict Implicit.
Unset Printing Implicit Defensive.
Import Order.Theory GRing.Theory Num.Theory.
Local Notation ltP := ssrnat.ltP.
Local Notation leP := ssrnat.leP.
Local Open Scope ring_scope.

Section NN.
Variable R : rcfType.
Local Notation fadd := (fun a b : R => a + b).
Local Notation fsub := (fun a b : R => a - b).
Local Notation fmul := (fun a b : R => a * b).
Local Notation fdiv := (fun a b : R => a / b).
Local Notation fabs := (fun a : R => `|a|).
Local Notation flt := (fun a b : R => a < b).
Local Notation feqb := (fun a b : R => a == b).

Lemma step_num (x g a b : R) : 0 <= x -> 0 < a -> x * g <= a ->
  let d := x * (b / a) - x in d * (a - b) *+ 2 + d ^+ 2 * g <= 0.
Proof.
move=> x0 a0 xg /=; set q := b / a - 1.
have -> : x * (b / a) - x = x * q by rewrite /q mulrBr mulr1.
have -> : a - b = - (a * q).
  by rewrite /q mulrBr mulr1 mulrCA divff ?gt_eqF // mulr1 opprB.
clearbody q.
have -> : x * q * - (a * q) *+ 2 + (x * q) ^+ 2 * g = x * q ^+ 2 * (x * g - a *+ 2).
  rewrite mulrBr addrC; congr (_ + _).
    by rewrite exprMn (expr2 x) -!mulrA; congr (x * _); rewrite mulrCA; congr (q * _); rewrite mulrCA.
  rewrite mulrN mulNrn mulrnAr; congr (- (_ *+ 2)).
  by rewrite expr2 -!mulrA; congr (x * (q * _)); rewrite mulrC.
apply: mulr_ge0_le0; first by rewrite mulr_ge0 // sqr_ge0.
by rewrite subr_le0 (le_trans xg) // mulr2n ler_addl ltW.
Qed.

Lemma nsqD2 n (u v : 'cV[R]_n) : nsq (u + v) = nsq u + (v^T *m u) 0 0 *+ 2 + nsq v.
Proof.
have T : (u + v)^T = u^T + v^T by rewrite linearD.
have S : (u^T *m v) 0 0 = (v^T *m u) 0 0 by rewrite -[in LHS](trmxK v) -trmx_mul mxE.
by rewrite !nsqE T mulmxDl !mulmxDr 3!mxE [in RHS]mulr2n S -!addrA !mxE; congr (_ + _).
Qed.

Section Fix.
Variables (p n : nat) (W : 'M[R]_(p, n)) (w : 'cV[R]_n).
Local Notation G := (W *m W^T).
Local Notation b := (W *m w).
Local Notation cost v := (nsq (W^T *m v - w)).

Lemma costD (v d : 'cV[R]_p) : cost (v + d) = cost v + (d^T *m (G *m v - b)) 0 0 *+ 2 + nsq (W^T *m d).
Proof.
have -> : W^T *m (v + d) - w = (W^T *m v - w) + W^T *m d by rewrite mulmxDr addrAC.
by rewrite nsqD2 trmx_mul trmxK -(mulmxA d^T) (mulmxBr W) (mulmxA W).
Qed.

Definition setc (v : 'cV[R]_p) i x : 'cV[R]_p := \col_j if j == i then x else v j 0.
Definition step (v : 'cV[R]_p) i : 'cV[R]_p := setc v i (v i 0 * (b i 0 / (G *m v) i 0)).

Lemma stepE v i j : step v i j 0 = if j == i then v i 0 * (b i 0 / (G *m v) i 0) else v j 0.
Proof. by rewrite mxE. Qed.
Lemma setcE (v : 'cV[R]_p) i x : setc v i x = v + (x - v i 0) *: delta_mx i 0.
Proof.
apply/colP => j; rewrite !mxE eqxx andbT; case: eqP => [->|_]; first by rewrite mulr1 addrC subrK.
by rewrite mulr0 addr0.
Qed.
Lemma cost_setc (v : 'cV[R]_p) i x : let d := x - v i 0 in
  cost (setc v i x) = cost v + (d * ((G *m v) i 0 - b i 0) *+ 2 + d ^+ 2 * G i i).
Proof.
move=> d; rewrite setcE costD -addrA; congr (_ + (_ *+ 2 + _)).
  have -> : ((x - v i 0) *: delta_mx i 0)^T = d *: delta_mx 0 i :> 'rV[R]_p by rewrite linearZ /= trmx_delta.
  by rewrite -scalemxAl mxE -rowE; rewrite !mxE.
rewrite nsqE trmx_mul trmxK mulmxA -!mulmxA (mulmxA W) linearZ /= trmx_delta -/d.
by rewrite -scalemxAr -scalemxAl -scalemxAr scalerA -colE -rowE !mxE expr2.
Qed.

Hypothesis G0 : forall i j, 0 <= G i j.
Hypothesis act : forall i, exists j, 0 < b j 0 /\ 0 < G i j.
Definition valid (v : 'cV[R]_p) : Prop := forall i, if 0 < b i 0 then 0 < v i 0 else v i 0 == 0.

Lemma valid_ge0 v i : valid v -> 0 <= v i 0.
Proof. by move/(_ i); case: ifP => _ => [/ltW|/eqP ->]. Qed.
Lemma av_ge v i j : valid v -> v j 0 * G i j <= (G *m v) i 0.
Proof.
move=> V; rewrite [leRHS]mxE (bigD1 j) //= mulrC ler_addl; apply: sumr_ge0 => k _.
by rewrite mulr_ge0 //; exact: valid_ge0.
Qed.
Lemma av_gt0 v i : valid v -> 0 < (G *m v) i 0.
Proof.
move=> V; have [j [bj Gij]] := act i; apply: lt_le_trans (av_ge i j V).
by have := V j; rewrite bj => vj; rewrite mulr_gt0.
Qed.
Lemma step_valid v i : valid v -> valid (step v i).
Proof.
move=> V j; have := V j; rewrite stepE; case: (j =P i) => [->|//]; case: ifP => B Vi.
  by apply: mulr_gt0 => //; apply: mulr_gt0 => //; rewrite invr_gt0; exact: av_gt0.
by rewrite (eqP Vi) mul0r.
Qed.
Lemma step_cost v i : valid v -> cost (step v i) <= cost v.
Proof.
move=> V; rewrite cost_setc -[leRHS]addr0 ler_add2l; apply: step_num; [exact: valid_ge0|exact: av_gt0|exact: av_ge].
Qed.

(* no coefficient changes: v is the best of the non-negative fits *)
Lemma fixed_opt (v : 'cV[R]_p) : valid v -> (forall i, v i 0 * (b i 0 / (G *m v) i 0) = v i 0) ->
  forall u : 'cV[R]_p, (forall i, 0 <= u i 0) -> cost v <= cost u.
Proof.
move=> V Fx u u0; have -> : u = v + (u - v) by rewrite addrC subrK.
rewrite costD -addrA ler_addl addr_ge0 ?nsq_ge0 // mulrn_wge0 // mxE; apply: sumr_ge0 => i _.
have := V i; have := Fx i; have := av_gt0 i V; set av := (G *m v) i 0 => av0.
have -> : (G *m v - b) i 0 = av - b i 0 by rewrite [LHS]mxE; congr (_ + _); rewrite [LHS]mxE.
have -> : (u - v)^T 0 i = u i 0 - v i 0 by rewrite !mxE.
case: ifP => B => [F vi|_ /eqP ->].
  have -> : av = b i 0; last by rewrite subrr mulr0.
  move: F; rewrite -[RHS]mulr1 => /(mulfI (negbT (gt_eqF vi))) /(canRL (divfK (negbT (gt_eqF av0)))).
  by rewrite mul1r.
rewrite subr0 mulr_ge0 // subr_ge0 (le_trans _ (ltW av0)) //.
by rewrite leNgt B.
Qed.

(* ---- the code ---- *)
Variables (alpha : img R) (beta : list R).
Hypothesis (Ha : is_mat alpha G) (Hb : is_vec beta b).
Local Notation update := (nn_update 0 fadd fsub fmul fdiv fabs feqb alpha beta).
Local Notation sweep := (nn_sweep 0 fadd fsub fmul fdiv fabs feqb alpha beta).
Local Notation loop := (fun k tol => nn_loop 0 fadd fsub fmul fdiv fabs flt feqb k tol alpha beta).

Lemma update_ok ps (v : 'cV[R]_p) a t (i : 'I_p) : is_vec ps (map_mx Some v) -> (G *m v) i 0 != 0 ->
  exists ps', update (ps, Some a, Some t) i = Ok (ps', Some (a + `|step v i i 0 - v i 0|), Some (t + v i 0)) /\
    is_vec ps' (map_mx Some (step v i)).
Proof.
move=> [Lp Hp] nz; have [Hr [Hc RA]] := proj1 (is_matP _ _) Ha.
have Rp : repv p ps (fun i => Some (vfn_of v i)).
  by split=> // j /ltP ip; rewrite (Hp (Ordinal ip)) mxE -(vfn_ofE v (Ordinal ip)).
have Eav : avf 0 fadd fmul p (fn_of G) (vfn_of v) i = (G *m v) i 0.
  by rewrite /avf addsE add0r add0n big_mkord [RHS]mxE; apply: eq_bigr => j _; rewrite fn_ofE vfn_ofE.
have Enew : newf 0 fadd fmul fdiv p (fn_of G) (vfn_of b) (vfn_of v) i = step v i i 0.
  by rewrite /newf Eav !vfn_ofE [RHS]mxE eqxx.
have [||ps' [ta' [tb' [E [Rp' /(_ a t erefl erefl) [Ea Et]]]]]] := nn_update_ok 0 fadd fsub fmul fdiv fabs feqb _ _ _ _ _ Hr Hc RA
  (proj1 (is_vecP _ _) Hb) _ _ (Some a) (Some t) i Rp.
- exact/ltP.
- by rewrite Eav; apply/negbTE.
rewrite E Ea Et Enew vfn_ofE; exists ps'; split=> //; case: Rp' => L' H'; split=> // j.
rewrite H'; last exact/ltP.
rewrite mxE /upd1 eqbE Enew; congr (Some (Some _)); case: eqP => [/ord_inj ->|ne] //.
rewrite vfn_ofE mxE; case: eqP => // Z; by rewrite Z in ne.
Qed.

Lemma sweep_ok ps (v : 'cV[R]_p) : is_vec ps (map_mx Some v) -> valid v ->
  exists ps' a t v', sweep ps = Ok (ps', Some a, Some t) /\ is_vec ps' (map_mx Some v') /\ valid v' /\
    cost v' <= cost v /\ (a <= 0 -> v' = v) /\ ((0 < p)%N -> 0 < t) /\ 0 <= t /\
    (v' = v -> forall i, v i 0 * (b i 0 / (G *m v) i 0) = v i 0).
Proof.
move=> Hp V; have [Hr _] := proj1 (is_matP _ _) Ha; rewrite /nn_sweep Hr.
pose I := fun (k : nat) (s : list (option R) * option R * option R) => exists ps' a t v',
  s = (ps', Some a, Some t) /\ is_vec ps' (map_mx Some v') /\ valid v' /\ cost v' <= cost v /\ 0 <= a /\
  (a = 0 -> v' = v) /\ t = \sum_(j < p | (j < k)%N) v j 0 /\ (forall j : 'I_p, (k <= j)%N -> v' j 0 = v j 0) /\
  (v' = v -> forall i : 'I_p, (i < k)%N -> v i 0 * (b i 0 / (G *m v) i 0) = v i 0).
have [||s [E [ps' [a [t [v' [Es [H1 [H2 [H3 [H4 [H5 [H6 [H7 H8]]]]]]]]]]]]]] := @ofold_seq_inv _ I update p 0 (ps, Some 0, Some 0).
- exists ps, 0, 0, v; split=> //; split=> //; split=> //; split=> //; split=> //; split=> //; split; last by split.
  by rewrite big_pred0 // => j; rewrite ltn0.
- move=> k s [/leP _ /ltP kp] [ps' [a [t [v' [-> [H1 [H2 [H3 [H4 [H5 [H6 [H7 H8]]]]]]]]]]]].
  rewrite -[Nat.add k 1]/(addn k 1) addn1.
  have [ps2 [E Hp2]] := update_ok a t (i:=Ordinal kp) H1 (negbT (gt_eqF (av_gt0 _ H2))).
  eexists; split; first exact: E.
  exists ps2, (a + `|step v' (Ordinal kp) (Ordinal kp) 0 - v' (Ordinal kp) 0|), (t + v' (Ordinal kp) 0), (step v' (Ordinal kp)).
  split=> //; split=> //; split; first exact: step_valid.
  split; first exact: le_trans (step_cost _ H2) H3.
  split; first by rewrite addr_ge0.
  split.
    move/eqP; rewrite paddr_eq0 // normr_eq0 subr_eq0 => /andP [/eqP /H5 Ev /eqP Ek].
    rewrite -[RHS]Ev; apply/colP => j; rewrite stepE; case: (j =P _) => [->|//].
    by rewrite -[RHS]Ek stepE eqxx.
  split.
    rewrite H6 (H7 (Ordinal kp)) //= [RHS](bigD1 (Ordinal kp)) /=; last exact: ltnSn.
    rewrite addrC; congr (_ + _); apply: eq_bigl => j; rewrite [RHS]andbC ltnS.
    exact: ltn_neqAle.
  split.
    move=> j kj; rewrite stepE; case: (j =P _) => [Ej|_]; first by move: kj; rewrite Ej /= ltnn.
    by apply: H7; exact: ltnW.
  move=> Es.
  have Ev : v' = v.
    apply/colP => j; have := congr1 (fun x : 'cV[R]_p => x j 0) Es; rewrite stepE /=; case: (j =P _) => [->|//] _.
    by rewrite H7.
  move=> i; rewrite ltnS leq_eqVlt => /orP [/eqP ik|]; last exact: H8.
  have -> : i = Ordinal kp by apply: val_inj.
  have := congr1 (fun x : 'cV[R]_p => x (Ordinal kp) 0) Es; rewrite stepE /= eqxx.
  by rewrite Ev.
rewrite Es in E; rewrite /= in H6 H7 H8; exists ps', a, t, v'; split=> //; split=> //; split=> //; split=> //; split.
  by move=> a0; apply: H5; apply/eqP; rewrite eq_le a0 H4.
have Et : t = \sum_(j < p) v j 0 by rewrite H6; apply: eq_bigl => j; rewrite ltn_ord.
split.
  move=> p0; have [j [bj _]] := act (Ordinal p0); rewrite Et (bigD1 j) //=.
  apply: ltr_paddr; first by apply: sumr_ge0 => i _; exact: valid_ge0.
  by have := V j; rewrite bj.
split; first by rewrite Et; apply: sumr_ge0 => i _; exact: valid_ge0.
by move=> Ev i; apply: H8.
Qed.

Lemma loop_ok k tol : forall ps (v : 'cV[R]_p) t, is_vec ps (map_mx Some v) -> valid v ->
  exists ps' v' t', loop k tol ps t = Ok (ps', t') /\ is_vec ps' (map_mx Some v') /\ valid v' /\ cost v' <= cost v.
Proof.
elim: k => [|k IH] ps v tt Hp V /=; first by exists ps, v, tt.
have [ps1 [a [t [v1 [-> [H1 [H2 [H3 _]]]]]]]] := sweep_ok Hp V; rewrite /=.
have stop : exists ps' v' t', Ok (ps1, (tt + 1)%num) = Ok (ps', t') /\ is_vec ps' (map_mx Some v') /\ valid v' /\ cost v' <= cost v.
  by exists ps1, v1, (tt + 1)%num.
case: eqP => // _; case: ifP => // _.
have [ps' [v' [t' [E [A [B C]]]]]] := IH ps1 v1 (tt + 1)%num H1 H2.
by exists ps', v', t'; split=> //; split=> //; split=> //; exact: le_trans C H3.
Qed.

(* with tolerance 0: a result that one more iteration leaves as it is *)
Lemma loop_fixed k : forall ps (v v' : 'cV[R]_p) t t1 t2 ps1 ps2, is_vec ps (map_mx Some v) -> valid v ->
  loop k 0 ps t = Ok (ps1, t1) -> loop k.+1 0 ps t = Ok (ps2, t2) -> is_vec ps1 (map_mx Some v') -> ps1 = ps2 ->
  valid v' /\ forall i, v' i 0 * (b i 0 / (G *m v') i 0) = v' i 0.
Proof.
have inj l (x y : 'cV[R]_p) : is_vec l (map_mx Some x) -> is_vec l (map_mx Some y) -> x = y.
  by move=> [_ A] [_ B]; apply/colP => i; have := A i; rewrite B !mxE => -[].
elim: k => [|k IH] ps v v' tt t1 t2 ps1 ps2 Hp V.
  move=> [<- _] /=; have [ps' [a [t [v1 [-> [H1 [H2 [H3 [H4 [H5 [H6 H7]]]]]]]]]]] := sweep_ok Hp V; rewrite /=.
  have step2 : forall r, Ok (ps', (tt + 1)%num) = Ok r -> is_vec ps (map_mx Some v') -> ps = r.1 ->
     valid v' /\ forall i, v' i 0 * (b i 0 / (G *m v') i 0) = v' i 0.
    move=> r [<-] /= Hv' E; rewrite -(inj _ _ _ Hp Hv'); split=> //.
    by apply: H7; apply: inj H1 _; rewrite -E.
  by case: eqP => _ => [E|]; [|case: ifP => _]; move=> E'; apply: (step2 (ps2, t2)).
have [ps' [a [t [v1 [E [H1 [H2 [H3 [H4 [H5 [H6 H7]]]]]]]]]]] := sweep_ok Hp V.
rewrite /= E /=.
have stop : (v1 = v) -> forall r, Ok (ps', (tt + 1)%num) = Ok r -> is_vec r.1 (map_mx Some v') ->
     valid v' /\ forall i, v' i 0 * (b i 0 / (G *m v') i 0) = v' i 0.
  by move=> Ev r [<-] /= Hv'; rewrite -(inj _ _ _ H1 Hv') Ev; split=> //; exact: H7.
case: eqP => [t0|tn].
  have p0 : p = 0%N by apply/eqP; rewrite -leqn0 leqNgt; apply/negP => /H5; rewrite t0 ltxx.
  by move=> _ _ _ _; split=> i; exfalso; case: i => m; rewrite p0.
case: Order.TotalTheory.ltP => [a0|a0].
  by move=> E1 E2; exact: (IH _ _ _ _ _ _ _ _ H1 H2 E1 E2).
move=> E1 E2 Hv _; apply: (stop _ (ps1, t1)) => //; apply: H4.
move: a0; rewrite leNgt => /negP a0; rewrite leNgt; apply/negP => a1; apply: a0.
by apply: divr_gt0 => //; rewrite lt_neqAle H6 andbT eq_sym; apply/eqP.
Qed.
End Fix.
End NN.

Section API.
Variable R : rcfType.
Local Notation fadd := (fun a b : R => a + b).
Local Notation fsub := (fun a b : R => a - b).
Local Notation fmul := (fun a b : R => a * b).
Local Notation fdiv := (fun a b : R => a / b).
Local Notation fabs := (fun a : R => `|a|).
Local Notation flt := (fun a b : R => a < b).
Local Notation feqb := (fun a b : R => a == b).

Lemma slopeE p n (X : 'M[R]_(p, n)) y e i : slope X y e i = (wmx X e *m wvec y e) i 0.
Proof. by rewrite mxE; apply: eq_bigr => m _; rewrite !mxE mulrACA -expr2 exprVn. Qed.

Section One.
Variables (p n : nat) (X : 'M[R]_(p, n)) (y e : 'rV[R]_n) (c : img R) (ya ye q : arg R).
Hypothesis (Fp : fits p p) (Hc : is_mat c (wmx X e)).
Hypothesis (Eq : arg_div fdiv ya ye = Ok q) (Hw : is_vec (flat q) (wvec y e)).
Hypothesis U : nn_usable X y e.
Local Notation W := (wmx X e).
Local Notation w := (wvec y e).
Local Notation donn := (linfit_do_nn 0 1 fadd fsub fmul fdiv fabs flt feqb).

Lemma usable_G : (forall i j, 0 <= (W *m W^T) i j) /\ (forall i, exists j, 0 < (W *m w) j 0 /\ 0 < (W *m W^T) i j).
Proof.
case: U => U1 U2; split=> [i j|i]; first by rewrite -curvatureE.
by have [j [A B]] := U2 i; exists j; rewrite -slopeE -curvatureE.
Qed.
Lemma start_vec beta : is_vec beta (W *m w) ->
  is_vec (List.map (fun b => Some (if 0 < b then 1 else 0)) beta) (map_mx Some (nn_start X y e)) /\ valid W w (nn_start X y e).
Proof.
move=> [L H]; split.
  split; first by rewrite List.map_length.
  move=> i; rewrite List.nth_error_map H /=.
  have -> // : map_mx Some (nn_start X y e) i 0 = Some (if 0 < (W *m w) i 0 then 1 else 0).
  by rewrite mxE [nn_start _ _ _ _ _]mxE slopeE.
move=> i; have -> : nn_start X y e i 0 = if 0 < (W *m w) i 0 then 1 else 0 by rewrite [LHS]mxE slopeE.
by case: (0 < (W *m w) i 0) => /=; rewrite ?ltr01.
Qed.
Lemma valid_slope v : valid W w v <-> forall i, if 0 < slope X y e i then 0 < v i 0 else v i 0 == 0.
Proof. by split=> H i; have := H i; rewrite slopeE. Qed.

Lemma do_nn_eq : exists al be, is_mat al (W *m W^T) /\ is_vec be (W *m w) /\
  forall k tol ps t v, nn_loop 0 fadd fsub fmul fdiv fabs flt feqb k tol al be
      (List.map (fun b => Some (if 0 < b then 1 else 0)) be) 0%num = Ok (ps, t) ->
    is_vec ps (map_mx Some v) -> donn k tol ya ye c = Ok (Nnres false (Some (chi2_of X y e v)) ps).
Proof.
have [al [be [E [Ha Hb]]]] := make_alpha_beta_mx Fp Hc Hw; exists al, be; split=> //; split=> // k tol ps t v El Hv.
rewrite /linfit_do_nn Eq /= E /= El /= (make_chi2_mx Hc Hv Hw) /= chi2_ofE.
by congr (Ok (Nnres _ _ _)); case: ifP.
Qed.
Lemma do_nn_ok k tol : exists r, donn k tol ya ye c = Ok r /\ nn_fitted X y e r /\ n_success r = false.
Proof.
have [al [be [Ha [Hb H]]]] := do_nn_eq; have [G0 act] := usable_G; have [S1 S2] := start_vec Hb.
have [ps [v [t [E [P1 [P2 P3]]]]]] := loop_ok G0 act Ha Hb k tol 0%num S1 S2.
rewrite (H _ _ _ _ _ E P1); eexists; split; first reflexivity; split=> //.
exists v; split=> //; split; first exact/valid_slope.
by rewrite !chi2_ofE.
Qed.
Lemma do_nn_opt k r r' : donn k 0 ya ye c = Ok r -> donn k.+1 0 ya ye c = Ok r' -> n_params r = n_params r' ->
  exists v, is_vec (n_params r) (map_mx Some v) /\
    forall u : 'cV[R]_p, (forall i, 0 <= u i 0) -> chi2_of X y e v <= chi2_of X y e u.
Proof.
have [al [be [Ha [Hb H]]]] := do_nn_eq; have [G0 act] := usable_G; have [S1 S2] := start_vec Hb.
have [ps [v [t [E [P1 [P2 P3]]]]]] := loop_ok G0 act Ha Hb k 0 0%num S1 S2.
have [ps' [v' [t' [E' [P1' _]]]]] := loop_ok G0 act Ha Hb k.+1 0 0%num S1 S2.
rewrite (H _ _ _ _ _ E P1) (H _ _ _ _ _ E' P1') => -[<-] [<-] /= Epp.
exists v; split=> // u u0; rewrite !chi2_ofE.
have [V F] := loop_fixed G0 act Ha Hb S1 S2 E E' P1 Epp.
by apply: fixed_opt.
Qed.
End One.

Lemma linfit_nn_fitted D (yl : list R) ye (ts : list (arg R)) k tol : let n := nprod D in let p := length ts in
  let X := rows_of p n ts in let y := row_of n (AV D yl) in let e := row_of n ye in
  fits p n -> fits p p -> length yl = n -> arg_ok D ye -> (forall t, List.In t ts -> arg_ok D t) -> nn_usable X y e ->
  (exists r, linfit_nn_real k tol (AV D yl) ye ts = Ok r /\ nn_fitted X y e r /\ n_success r = false) /\
  (forall r r', linfit_nn_real k 0 (AV D yl) ye ts = Ok r -> linfit_nn_real k.+1 0 (AV D yl) ye ts = Ok r' ->
     n_params r = n_params r' -> exists v, is_vec (n_params r) (map_mx Some v) /\
       forall u : 'cV[R]_p, (forall i, 0 <= u i 0) -> chi2_of X y e v <= chi2_of X y e u).
Proof.
move=> n p X y e Fn Fp Ly He Hts U; have [c [E Hc]] := linfit_cache_ok Fn Ly He Hts.
have [q [Eq Hq]] := @wvec_div R D (AV D yl) ye (conj erefl Ly) He (fun x => ltac:(discriminate)).
rewrite /linfit_nn_real /linfit_nn E; split.
  by have [r Hr] := do_nn_ok Fp Hc Eq Hq U k tol; exists r.
by move=> r r'; exact: (do_nn_opt Fp Hc Eq Hq U).
Qed.

Lemma nn_pack_eq D (y es : list R) p (x : list R) k (tol : R) : length y = nprod D -> length es = nprod D -> length x = (p * nprod D)%N ->
  fits p (nprod D) -> linfit_nn_pack_real k tol D y D es (p :: D) x = linfit_nn_real k tol (AV D y) (AV D es) (parts D x p).
Proof.
move=> Ly Le Lx Hf; have Lp : length (parts D x p) = p by rewrite lengthE size_map size_iota.
rewrite /linfit_nn_pack_real /linfit_nn_pack /pack_cache dims_check /= Ly filled_ok //=.
have [c [-> Hc]] := pack_loop_mx Le Lx; rewrite /=.
have Hf' : fits (length (parts D x p)) (nprod D) by rewrite Lp.
have [c' [E Hc']] := @linfit_cache_ok R D y (AV D es) (parts D x p) Hf' Ly (conj erefl Le) (fun t => parts_ok Lx).
rewrite /linfit_nn_real /linfit_nn E /=; congr linfit_do_nn.
move: Hc'; rewrite Lp => Hc'; exact: is_mat_inj Hc Hc'.
Qed.
End API.
