(* Lemmas on linear fits, part 4: linfit_pack() and linfit_batch. *)
From Verif Require Import Base ImageModel ImageSpec ImageProofs MatModel MatProofs MatProofs4 LinfitModel LinfitProofs.
From mathcomp Require Import all_ssreflect all_algebra all_fingroup.
From Verif Require Import MatSpec MatProofs2 MatProofs3 MatProofs5 MatProofs6 MatProofs8 LinfitSpec LinfitProofs2 LinfitProofs3.
Set Implicit Arguments.
Unset Strict Implicit.
Unset Printing Implicit Defensive.
Import Order.Theory GRing.Theory Num.Theory.
Local Notation ltP := ssrnat.ltP.
Local Notation leP := ssrnat.leP.
Local Open Scope ring_scope.

Lemma is_vec_inj (A : Type) n (l l' : list A) (x : 'cV[A]_n) : is_vec l x -> is_vec l' x -> l = l'.
Proof.
move=> [L H] [L' H']; apply: list_eq_nth_error => k; case: (ltnP k n) => kn.
  by rewrite (H (Ordinal kn)) (H' (Ordinal kn)).
by rewrite !(proj2 (List.nth_error_None _ _)) //; apply/leP; rewrite ?L ?L'.
Qed.
Lemma is_mat_inj (A : Type) n m (v w : img A) (x : 'M[A]_(n, m)) : is_mat v x -> is_mat w x -> v = w.
Proof.
case: v w => [r c d] [r' c' d'] /= [/= -> [-> [L H]]] [/= -> [-> [L' H']]]; congr Img.
apply: list_eq_nth_error => k; case: (ltnP k (n * m)) => kn; last first.
  by rewrite !(proj2 (List.nth_error_None _ _)) //; apply/leP; rewrite ?L ?L'.
have m0 : (0 < m)%N by case: m kn {x H H' L L'} => //; rewrite muln0.
have kd : (k %/ m < n)%N by rewrite ltn_divLR.
have := H (Ordinal kd) (Ordinal (ltn_pmod k m0)); have := H' (Ordinal kd) (Ordinal (ltn_pmod k m0)).
by rewrite /= -divn_eq => -> ->.
Qed.

Section Pack.
Variable R : rcfType.
Local Notation fadd := (fun a b : R => a + b).
Local Notation fsub := (fun a b : R => a - b).
Local Notation fmul := (fun a b : R => a * b).
Local Notation fdiv := (fun a b : R => a / b).
Local Notation fabs := (fun a : R => `|a|).
Local Notation flt := (fun a b : R => a < b).
Local Notation feqb := (fun a b : R => a == b).

(* the i-th part of x *)
Definition part D (x : list R) (i : nat) : arg R := AV D (take (nprod D) (drop (i * nprod D) x)).
Definition parts D (x : list R) (p : nat) : list (arg R) := [seq part D x i | i <- iota 0 p].

Lemma lengthE (A : Type) (l : list A) : length l = size l.
Proof. by []. Qed.
Lemma part_at D x i j : (j < nprod D)%N -> arg_at (part D x i) j = seq.nth 0 x (i * nprod D + j).
Proof. by move=> jD; rewrite /= nth_take // nth_drop. Qed.
Lemma parts_nth D x p i : (i < p)%N -> seq.nth (AS 0) (parts D x p) i = part D x i.
Proof. by move=> ip; rewrite (nth_map 0%N) ?size_iota // nth_iota. Qed.
Lemma parts_ok D x p t : length x = (p * nprod D)%N -> List.In t (parts D x p) -> arg_ok D t.
Proof.
move=> L /(@List.In_nth _ _ _ (AS 0)) [i [/ltP iL <-]]; rewrite lengthE size_map size_iota in iL.
have -> : List.nth i (parts D x p) (AS 0) = part D x i.
  by rewrite -(parts_nth D x iL); elim: (parts D x p) i {iL} => [|a l IH] [|i] //=.
split=> //; rewrite lengthE size_take size_drop -lengthE L -mulnBl; case: ifP => // /negbT.
have : (0 < p - i)%N by rewrite subn_gt0.
case: (p - i)%N => // k _; rewrite mulSn -leqNgt => H; apply/eqP; rewrite eqn_leq H leq_addr //.
Qed.
Lemma ogetE (l : list R) j : (j < length l)%N -> oget l j = Ok (seq.nth 0 l j).
Proof. by move=> jl; rewrite /oget nthE. Qed.

Lemma pack_loop_mx D es p x : length es = nprod D -> length x = (p * nprod D)%N ->
  exists c, pack_loop fdiv (nprod D) x es (Img p (nprod D) (List.repeat 0 (p * nprod D))) = Ok c /\
  is_mat c (wmx (rows_of p (nprod D) (parts D x p)) (row_of (nprod D) (AV D es))).
Proof.
move=> Le Lx; set n := nprod D.
have [||d [E Rd]] := @LinfitProofs.pack_loop_ok R 0 fdiv p n n x es (Img p n (List.repeat 0 (p * n)))
  (fun i j => seq.nth 0 x (i * n + j)) (fun j => seq.nth 0 es j) erefl erefl (List.repeat_length _ _).
- move=> i j /ltP ip /ltP jn; rewrite ogetE // Lx; apply: (@leq_trans (i.+1 * n)); first by rewrite mulSnr ltn_add2l.
  by rewrite leq_mul2r ip orbT.
- by move=> j /ltP jn; rewrite ogetE // Le.
exists (Img p n d); split=> //; apply: is_matI Rd _ => i m.
by rewrite !mxE parts_nth // part_at.
Qed.
Lemma nprod_nil : nprod [::] = 1%N. Proof. by []. Qed.
Lemma dims_check D : List.forallb (fun '(a, (b, c)) => ((a =? b)%nat && (a =? c)%nat)) (List.combine D (List.combine D D)) = true.
Proof. by elim: D => //= a D ->; rewrite !PeanoNat.Nat.eqb_refl. Qed.
Lemma dims_check_inv D : forall E Y, length E = length D -> length Y = length D ->
  List.forallb (fun '(a, (b, c)) => ((a =? b)%nat && (a =? c)%nat)) (List.combine D (List.combine E Y)) = true -> E = D /\ Y = D.
Proof.
elim: D => [|a D IH] [|b E] [|c Y] //= [LE] [LY] /andP [/andP [/PeanoNat.Nat.eqb_eq -> /PeanoNat.Nat.eqb_eq ->]].
by move=> /(IH _ _ LE LY) [-> ->].
Qed.

Lemma pack_eq D y es p x : length y = nprod D -> length es = nprod D -> length x = (p * nprod D)%N ->
  fits p (nprod D) -> linfit_pack_real D y D es (p :: D) x = linfit_real (AV D y) (AV D es) (parts D x p).
Proof.
move=> Ly Le Lx Hf; have Lp : length (parts D x p) = p by rewrite lengthE size_map size_iota.
rewrite /linfit_pack_real /linfit_pack /pack_cache dims_check /= Ly filled_ok //=.
have [c [-> Hc]] := pack_loop_mx Le Lx; rewrite /=.
have Hf' : fits (length (parts D x p)) (nprod D) by rewrite Lp.
have [c' [E Hc']] := @linfit_cache_ok R D y (AV D es) (parts D x p) Hf' Ly (conj erefl Le) (fun t => parts_ok Lx).
rewrite /linfit_real /linfit E /=; congr linfit_do.
move: Hc'; rewrite Lp => Hc'; exact: is_mat_inj Hc Hc'.
Qed.
Lemma pack_mismatch dy (y : list R) de es p dx x : length dy = length dx -> length de = length dx ->
  dy <> dx \/ de <> dx -> linfit_pack_real dy y de es (p :: dx) x = CheckFail.
Proof.
move=> Ly Le N; rewrite /linfit_pack_real /linfit_pack /pack_cache.
case E: List.forallb => //=; exfalso.
by have [e1 e2] := dims_check_inv Le Ly E; case: N.
Qed.

(* ---- batches ---- *)
Lemma unit0 p (A : 'M[R]_p) : p = 0%N -> A \in unitmx.
Proof. by move=> E; move: A; rewrite E => A; rewrite unitmxE det_mx00 unitr1. Qed.
Section Batch.
Variables (D : list nat) (es : list R).
Hypothesis (Le : length es = nprod D).
Notation n := (nprod D).
Notation e := (row_of n (AV D es)).

Section Inv.
Variables (p : nat).
Hypotheses (Fp : fits p p).

(* everything but the last inversion *)
Definition hinv (X : 'M[R]_(p, n)) (b : batch (F:=R)) : Prop :=
  b_ye b = AV D es /\ is_mat (b_cache b) (wmx X e) /\ length (b_beta b) = p /\
  is_mat (b_alpha b) (wmx X e *m (wmx X e)^T) /\ exists k (K : 'M[R]_k), is_mat (cov (b_fr b)) K.
Definition binv (X : 'M[R]_(p, n)) (b : batch (F:=R)) : Prop :=
  hinv X b /\
  let G := wmx X e *m (wmx X e)^T in let fr := b_fr b in
  if G \in unitmx
  then success fr = true /\ is_mat (cov fr) (invmx G) /\
       is_vec (errors fr) (map_mx (fun x => Some (Num.sqrt x)) (\col_i invmx G i i))
  else success fr = false /\ params fr = nans p /\ errors fr = nans p.

Lemma invert_matrix_ok X b : hinv X b -> exists b',
  invert_matrix 0 1 fsub fmul fdiv fabs flt feqb (@Num.sqrt R) b = Ok b' /\ binv X b' /\
  (success (b_fr b') = true -> params (b_fr b') = params (b_fr b)).
Proof.
move=> [Hy [Hc [Lb [Ha [k [K HK]]]]]]; rewrite /invert_matrix.
have I := invert_mx Fp Ha; move: I; rewrite /invert_field -/(invert _ _ _ _ _ _ _ _); case: ifP => U.
  move=> [v [-> Hv]] /=; have [dg [-> Hd]] := diagonal_mx Hv; rewrite /=.
  have [s [-> Hs]] := sym_mx Hv (inv_sym (wmx X e)); rewrite /=.
  eexists; split; first reflexivity; split=> //; split; last first.
    rewrite /= U; split=> //; split=> //; exact: (is_vec_map _ Hd).
  by split=> //=; split=> //; split=> //; split=> //; exists p, (invmx (wmx X e *m (wmx X e)^T)).
move=> -> /=; have [s [-> Hs]] := symmetrize_mx HK; rewrite /=.
have Hr : nr (b_cache b) = p by case: Hc.
eexists; split; first reflexivity; split=> //; split; last by rewrite /= U Hr.
by split=> //=; split=> //; split=> //; split=> //; exists k, (\matrix_(i, j) (if (i < j)%N then K j i else K i j)).
Qed.

Definition set_model (X : 'M[R]_(p, n)) (i : nat) (x : list R) : 'M[R]_(p, n) :=
  \matrix_(a < p, m < n) if a == i :> nat then seq.nth 0 x m else X a m.
Lemma update_model__ok X b i x : hinv X b -> (i < p)%N -> (n <= length x)%N -> exists b',
  update_model_ 0 fadd fmul fdiv b i x = Ok b' /\ hinv (set_model X i x) b' /\ b_fr b' = b_fr b.
Proof.
move=> [Hy [Hc [Lb [Ha HK]]]] ip nx; rewrite /update_model_ Hy /=.
have [Hr [Hn RC]] := proj1 (is_matP _ _) Hc; rewrite Hr Hn.
have ip' : (i < p)%coq_nat by apply/ltP.
have -> /= : (i <? p)%nat = true by apply/PeanoNat.Nat.ltb_lt.
have [||d [E Rd]] := @div_row_ok R fdiv p n (pix (b_cache b)) _ i (fun j => oget x j) (fun j => oget es j)
  (fun j => seq.nth 0 x j) (fun j => seq.nth 0 es j) ip' _ _ RC.
- by move=> j /ltP jn; rewrite ogetE // (leq_trans jn).
- by move=> j /ltP jn; rewrite ogetE // Le.
rewrite E /= /update_matrix_i /=.
have Hc' : is_mat (Img p n d) (wmx (set_model X i x) e).
  apply: is_matI Rd _ => a m; rewrite !mxE eqbE; case: ifP => // _; by rewrite fn_ofE !mxE.
have [_ [_ RC']] := proj1 (is_matP _ _) Hc'.
have [_ [_ RA]] := proj1 (is_matP _ _) Ha.
have [d' [-> RA']] := update_matrix_i_ok 0 fadd fmul p n (Img p n d) _ erefl erefl RC' _ _ i RA ip'; rewrite /=.
eexists; split; first reflexivity; split=> //; split=> //=; split=> //.
split; first exact: Lb.
split; last exact: HK.
apply: is_matI RA' _ => a m; rewrite !eqbE.
case: eqP => [ai|ai]; first by rewrite -ai gramfE.
case: eqP => [mi|mi].
  by rewrite -mi gramfE -[in LHS](gram_sym (wmx _ _)) mxE.
rewrite fn_ofE !mxE; apply: eq_bigr => k _; rewrite !mxE.
by move/eqP/negPf: ai => ->; move/eqP/negPf: mi => ->.
Qed.
Lemma update_model_ok X b i x : hinv X b -> (i < p)%N -> (n <= length x)%N -> exists b',
  update_model_real b i x = Ok b' /\ binv (set_model X i x) b' /\
  (success (b_fr b') = true -> params (b_fr b') = params (b_fr b)).
Proof.
move=> H ip nx; have [b1 [E1 [H1 F1]]] := update_model__ok H ip nx.
rewrite /update_model_real /update_model E1 /=; have [b2 [-> [H2 F2]]] := invert_matrix_ok H1.
by exists b2; rewrite -F1.
Qed.
Lemma update_models_ok : forall l X b, hinv X b -> (forall i x, List.In (i, x) l -> (i < p)%N /\ (n <= length x)%N) ->
  exists b', update_models_real b l = Ok b' /\
    binv (List.fold_left (fun X ix => set_model X ix.1 ix.2) l X) b'.
Proof.
elim=> [|[i x] l IH] X b H Hl /=.
  by have [b2 [E2 [H2 _]]] := invert_matrix_ok H; exists b2.
have [ip nx] := Hl i x (or_introl erefl).
have [b1 [E1 [H1 F1]]] := update_model__ok H ip nx.
rewrite /update_models_real /= E1 /=; apply: (IH _ _ H1) => j z Hj; exact: (Hl j z (or_intror Hj)).
Qed.
Lemma update_model_bound X b i x : hinv X b -> (p <= i)%N -> update_model_real b i x = CheckFail.
Proof.
move=> [_ [Hc _]] pi; rewrite /update_model_real /update_model /update_model_.
have -> : nr (b_cache b) = p by case: Hc.
by have -> : (i <? p)%nat = false by apply/PeanoNat.Nat.ltb_ge/leP.
Qed.

Lemma same_dims_ok (yl : list R) : length yl = n -> same_dims (arg_size (AV D yl)) [:: AV D es] = true.
Proof. by move=> L; rewrite /same_dims /= L Le PeanoNat.Nat.eqb_refl orbT. Qed.

Lemma fit_nochi2_ok X b yl : binv X b -> length yl = n ->
  let w := wvec (row_of n (AV D yl)) e in let G := wmx X e *m (wmx X e)^T in
  exists b', fit_nochi2_real b (AV D yl) = Ok b' /\ binv X b' /\
    (G \in unitmx -> is_vec (params (b_fr b')) (map_mx Some (invmx G *m (wmx X e *m w)))).
Proof.
move=> [[Hy [Hc [Lb [Ha HK]]]] HU] Ly w G; rewrite /fit_nochi2_real /fit_nochi2 Hy same_dims_ok //=.
move: HU; rewrite /= -/G; case U: (G \in unitmx) => -[S [H1 H2]]; rewrite S /=; last first.
  by exists b; split=> //; split; [split=> //; rewrite /= -/G U | by []].
have [q [Eq Hq]] := @wvec_div R D (AV D yl) (AV D es) (conj erefl Ly) (conj erefl Le) (fun x => ltac:(discriminate)).
rewrite /= in Eq; rewrite Eq /=.
have [Hr [Hn RC]] := proj1 (is_matP _ _) Hc; rewrite Hr.
have [be [-> [Lbe Rbe]]] := beta_loop_ok 0 fadd fmul p n _ _ Hr Hn RC _ _ _ (proj1 (is_vecP _ _) Hq) Lb; rewrite /=.
have Hbe : is_vec be (wmx X e *m w) by split=> // i; rewrite Rbe ?betafE //; apply/ltP.
have [ps [E Hp]] := mat_vec_mx H1 Hbe; rewrite /mat_vec_ring in E; rewrite E /=.
eexists; split; first reflexivity; split; last by move=> _; exact: is_vec_map.
split; last by rewrite /= -/G U.
by split=> //; split=> //; split=> //; split=> //; exists p, (invmx G).
Qed.

Lemma modelf_nan W m : (0 < p)%N -> modelf 0 fadd fmul p W (fun _ => None) m = None.
Proof.
rewrite /modelf; case: p => // k _ /=.
by elim: (List.seq 1 k) => [|i l IH] /=.
Qed.
Lemma update_chi2_nan X b yl : hinv X b -> params (b_fr b) = nans p -> (0 < p)%N -> (0 < n)%N -> length yl = n ->
  exists b', update_chi2_real b (AV D yl) = Ok b' /\ hinv X b' /\ chi2 (b_fr b') = None /\
    success (b_fr b') = success (b_fr b) /\ params (b_fr b') = params (b_fr b) /\ errors (b_fr b') = errors (b_fr b) /\
    cov (b_fr b') = cov (b_fr b).
Proof.
move=> H Hp p0 n0 Ly; have [Hy [Hc [Lb [Ha HK]]]] := H; rewrite /update_chi2_real /update_chi2 Hy.
have [Hr [Hn RC]] := proj1 (is_matP _ _) Hc.
have Rp : repv p (params (b_fr b)) (fun _ => None) by rewrite Hp; exact: repv_repeat.
have [l [-> Rl]] := make_model_ok 0 fadd fmul _ _ _ _ Hr Hn RC _ _ Rp; rewrite /=.
have [q [Eq Hq]] := @wvec_div R D (AV D yl) (AV D es) (conj erefl Ly) (conj erefl Le) (fun x => ltac:(discriminate)).
rewrite /= in Eq; rewrite Eq /=.
rewrite (total_sqr_nan 0 fadd fmul fsub n _ _ _ _ Rl (proj1 (is_vecP _ _) Hq)); last first.
  by exists 0%N; split; [exact/ltP | exact: modelf_nan].
by eexists; split; first reflexivity.
Qed.
Lemma update_chi2_mx X b yl (a : 'cV[R]_p) : hinv X b -> is_vec (params (b_fr b)) (map_mx Some a) -> length yl = n ->
  exists b', update_chi2_real b (AV D yl) = Ok b' /\ hinv X b' /\
    chi2 (b_fr b') = Some (nsq ((wmx X e)^T *m a - wvec (row_of n (AV D yl)) e)) /\
    success (b_fr b') = success (b_fr b) /\ params (b_fr b') = params (b_fr b) /\ errors (b_fr b') = errors (b_fr b) /\
    cov (b_fr b') = cov (b_fr b).
Proof.
move=> H Hp Ly; have [Hy [Hc [Lb [Ha HK]]]] := H.
have [q [Eq Hq]] := @wvec_div R D (AV D yl) (AV D es) (conj erefl Ly) (conj erefl Le) (fun x => ltac:(discriminate)).
have := make_chi2_mx Hc Hp Hq; rewrite /make_chi2 /update_chi2_real /update_chi2 Hy.
case: make_model => //= model; rewrite /= in Eq; rewrite Eq /=; case: total_sqr => //= x2 [->].
by eexists; split; first reflexivity.
Qed.

(* what a fit leaves *)
Lemma fit_ok X b yl : binv X b -> length yl = n -> (0 < n)%N ->
  let w := wvec (row_of n (AV D yl)) e in let G := wmx X e *m (wmx X e)^T in let a := invmx G *m (wmx X e *m w) in
  exists b', fit_real b (AV D yl) = Ok b' /\ binv X b' /\
    if G \in unitmx then is_vec (params (b_fr b')) (map_mx Some a) /\ chi2 (b_fr b') = Some (nsq ((wmx X e)^T *m a - w))
    else chi2 (b_fr b') = None.
Proof.
move=> H Ly n0 w G a; have [b1 [E1 [[H1 U1] P1]]] := fit_nochi2_ok H Ly.
rewrite /fit_nochi2_real in E1; rewrite /fit_real /fit E1 /=; move: U1 P1; rewrite /= -/G -/w; case U: (G \in unitmx) => U1 P1.
  have [b2 [E2 [H2 [C2 [S2 [P2 [R2 V2]]]]]]] := update_chi2_mx H1 (P1 isT) Ly.
  exists b2; split=> //; split; last by rewrite P2; split=> //; exact: P1.
  split; first exact: H2.
  by rewrite /= -/G U S2 R2 V2.
have [S1 [Q1 R1]] := U1.
have p0 : (0 < p)%N.
  by rewrite lt0n; apply/negP => /eqP Z; move: U; rewrite (unit0 _ Z).
have [b2 [E2 [H2 [C2 [S2 [P2 [R2 V2]]]]]]] := update_chi2_nan H1 Q1 p0 n0 Ly.
by exists b2; split=> //; split=> //; split=> //; rewrite /= -/G U S2 P2 R2.
Qed.

(* the result of a fit is the one of linfit() *)
Lemma fit_linfit X b yl c ye q r : binv X b -> length yl = n -> (0 < n)%N ->
  is_mat c (wmx X e) -> arg_div fdiv (AV D yl) ye = Ok q -> is_vec (flat q) (wvec (row_of n (AV D yl)) e) ->
  linfit_do 0 1 fadd fsub fmul fdiv fabs flt feqb (@Num.sqrt R) (AV D yl) ye c = Ok r ->
  exists b', fit_real b (AV D yl) = Ok b' /\
    success (b_fr b') = success r /\ chi2 (b_fr b') = chi2 r /\ params (b_fr b') = params r /\
    errors (b_fr b') = errors r /\ (success r = true -> cov (b_fr b') = cov r).
Proof.
move=> H Ly n0 Hc Eq Hq E; have [r' [E' Hr]] := linfit_do_mx Fp Hc Eq Hq.
have -> : r = r' by move: E'; rewrite E => -[].
have [b' [Eb [[_ Hb] Hb']]] := fit_ok H Ly n0; exists b'; split=> //.
move: Hr Hb Hb'; rewrite /=; case: ifP => U.
  move=> [-> [-> [P1 [R1 V1]]]] [-> [V2 R2]] [P2 ->]; split=> //; split=> //.
  split; first exact: is_vec_inj P2 P1.
  by split; [exact: is_vec_inj R2 R1 | move=> _; exact: is_mat_inj V2 V1].
by move=> [-> [-> [-> [-> _]]]] [-> [-> ->]] ->.
Qed.
End Inv.

Lemma new_ok ts : (forall t, List.In t ts -> arg_ok D t) -> fits (length ts) n -> fits (length ts) (length ts) ->
  exists b, linfit_batch_real (AV D es) ts = Ok b /\ binv (rows_of (length ts) n ts) b /\
    (success (b_fr b) = true -> params (b_fr b) = [::]).
Proof.
move=> Hts Hf Fp; set p := length ts; rewrite /linfit_batch_real /linfit_batch /= Le filled_ok //=.
have [c [-> [Hr [Hn RC]]]] := @make_cache_ok R D (AV D es) p (conj erefl Le) ts 0 (Img p n (List.repeat 0 (p * n))) _ erefl erefl
  (rep_repeat p n 0) erefl Hts; rewrite /=.
have Hc : is_mat c (wmx (rows_of p n ts) e).
  by apply: (@rep_is_mat_ring _ _ _ _ _ _ Hr Hn RC) => i m; rewrite ltn0 subn0 !mxE.
have [_ [_ RC']] := proj1 (is_matP _ _) Hc.
have [d [E Rd]] := gram_all_ok 0 fadd fmul _ _ _ _ Hr Hn RC' Fp.
rewrite /update_matrix /= Hr; move: E; case: filled => //= a ->; rewrite /=.
have H : hinv (rows_of p n ts) (Batch (AV D es) c (List.repeat 0 p) (Img p p d) (fr0 (F:=R))).
  split=> //; split=> //; split; first exact: List.repeat_length; split.
    by apply: is_matI Rd _ => i j; rewrite gramcE.
  by exists 0%N, 0; split=> //; split=> //; split=> // -[].
by have [b [-> [Hb Pb]]] := invert_matrix_ok Fp H; exists b; split.
Qed.
End Batch.
End Pack.
